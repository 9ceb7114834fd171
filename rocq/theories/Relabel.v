(** The numbering of ports does not matter: circuits that differ only in it have the same fields. *)
From Coq Require Import Ring QArith Permutation Sorted.
From Verif Require Import Base PyStr NetModel NetSpec NetProofs WireProofs StateProofs OrderProofs NetBuild SimModel SimAlg SimSpec SimNodes SimProofs SimDelay SimRegular CircuitSpec CircuitProofs RelabelSpec.
Set Implicit Arguments.
Unset Strict Implicit.
Local Open Scope nat_scope.
Local Open Scope list_scope.

Section R.
Variables (K : Type) (k0 k1 : K) (kadd kmul ksub : K -> K -> K) (kopp : K -> K).
Hypothesis KR : ring_theory k0 k1 kadd kmul ksub kopp (@eq K).
Notation cx := (prod K K).
Notation c0 := (c0 k0).
Notation cadd := (cadd kadd).
Notation cmul := (cmul kadd kmul ksub).
Notation csum := (lsum c0 cadd).
Notation net := (buf (nat -> cx) Q).
Notation waves := (waves k0 kadd kmul ksub).
Notation no_resonance := (no_resonance k0 kadd kmul ksub).
Add Ring CRing : (CircuitProofs.CR KR).

Section F.
Variables (f g : nat -> nat) (b b' : net).
Hypothesis H : relabels f g b b'.

Lemma rl_perm : Permutation (map f (seq 0 (b_np b))) (seq 0 (b_np b)).
Proof.
  apply NoDup_Permutation; [|apply seq_NoDup|].
  - apply (NoDup_map_inv g). rewrite map_map. rewrite (map_ext_in _ (fun i => i)); [rewrite map_id; apply seq_NoDup|].
    intros i Hi. apply in_seq in Hi. apply (rl_f H). lia.
  - intros i. rewrite in_map_iff, in_seq. split.
    + intros (j & <- & Hj). apply in_seq in Hj. pose proof (proj1 (rl_f H (i := j) ltac:(lia))). lia.
    + intros Hi. exists (g i). pose proof (rl_g H (i := i) ltac:(lia)) as [H1 H2]. split; [exact H2|]. apply in_seq. lia.
Qed.
Lemma rl_sum (F : nat -> cx) : csum F (seq 0 (b_np b)) = csum (fun i => F (f i)) (seq 0 (b_np b)).
Proof. rewrite <- (lsum_map (A := nat) c0 cadd f F). symmetry. apply (lsum_perm (CircuitProofs.CR KR)), rl_perm. Qed.
Lemma rl_lag e i : i < b_np b -> lag e b' (f i) = lag e b i.
Proof. intros Li. unfold lag. destruct (rl_at H Li) as (-> & -> & -> & ->). reflexivity. Qed.
Lemma rl_rank (s s' : nat -> bool) : (forall i, i < b_np b -> s' (f i) = s i) -> forall i, i < b_np b -> s' i = s (g i).
Proof. intros E i Li. pose proof (rl_g H Li) as [H1 H2]. rewrite <- (E _ H1), H2. reflexivity. Qed.

Lemma rl_waves e w T src a o : waves e b w T src a o ->
  waves e b' w T (fun t i => src t (g i)) (fun t i => a t (g i)) (fun t i => o t (g i)).
Proof.
  intros W t i Lt Li. rewrite (rl_np H) in *. pose proof (rl_g H Li) as [G1 G2]. destruct (W t (g i) Lt G1) as [W1 W2]. split.
  - rewrite W1. rewrite (rl_sum (fun j => if b_C b' i j then o t (g j) else c0)). apply lsum_ext. intros j Ij. apply in_seq in Ij.
    pose proof (rl_f H (i := j) ltac:(lia)) as [F1 F2]. rewrite F2. rewrite <- G2 at 2. rewrite (rl_C H) by lia. reflexivity.
  - rewrite W2. f_equal. rewrite (rl_sum (fun j => cmul (b_S b' i j w) (past k0 (fun t i => a t (g i)) (lag e b' j) t j))). apply lsum_ext. intros j Ij. apply in_seq in Ij.
    pose proof (rl_f H (i := j) ltac:(lia)) as [F1 F2]. rewrite rl_lag by lia. rewrite <- G2 at 2. rewrite (rl_S H) by lia. unfold past. rewrite F2. reflexivity.
Qed.
Lemma rl_onto i : i < b_np b -> exists i0, i = f i0 /\ i0 < b_np b.
Proof. intros Li. exists (g i). pose proof (rl_g H Li) as [G1 G2]. auto. Qed.
Lemma rl_unmixed e w : unmixed k0 e b w -> unmixed k0 e b' w.
Proof.
  intros U i j Li Lj N. rewrite (rl_np H) in *. destruct (rl_onto Li) as (i0 & -> & L1), (rl_onto Lj) as (j0 & -> & L2).
  rewrite (rl_S H) by auto. apply U; auto. rewrite !rl_lag in N by auto. exact N.
Qed.
Lemma rl_resonance e w : no_resonance e b w -> no_resonance e b' w.
Proof.
  intros NR x Hx i Li Lg. rewrite (rl_np H) in *. destruct (rl_onto Li) as (i0 & -> & G1).
  apply (NR (fun i => x (f i))); [|exact G1|rewrite rl_lag in Lg by auto; exact Lg].
  intros j Lj L0. rewrite Hx by (rewrite ?rl_lag; auto; apply (rl_f H); auto).
  rewrite (rl_sum (fun j0 => if b_C b' (f j) j0 then _ else c0)). apply lsum_ext. intros k Ik. apply in_seq in Ik. rewrite (rl_C H) by lia.
  destruct (b_C b j k); [|reflexivity]. rewrite (rl_sum (fun k0 => if lag e b' k0 =? 0 then _ else _)). apply lsum_ext. intros l Il. apply in_seq in Il.
  rewrite rl_lag, (rl_S H) by lia. reflexivity.
Qed.
Lemma rl_separate : separate b -> separate b'.
Proof.
  intros Sep i Li. rewrite (rl_np H) in Li. pose proof (rl_g H Li) as [G1 G2]. rewrite <- G2. destruct (rl_at H G1) as (-> & -> & -> & _). now apply Sep.
Qed.
Lemma perm_filter {B} (s : B -> bool) l r : Permutation l r -> Permutation (filter s l) (filter s r).
Proof.
  induction 1; cbn; auto.
  - destruct (s x); auto.
  - destruct (s x), (s y); auto. constructor.
  - now rewrite IHPermutation1.
Qed.
Lemma rl_count (s s' : nat -> bool) : (forall i, i < b_np b -> s' (f i) = s i) ->
  length (filter s' (seq 0 (b_np b'))) = length (filter s (seq 0 (b_np b))).
Proof.
  intros E. rewrite (rl_np H). rewrite <- (Permutation_length (perm_filter s' rl_perm)).
  rewrite filter_map_comm, map_length. f_equal. apply filter_ext_in. intros i Hi. apply in_seq in Hi. apply E. lia.
Qed.
Lemma rl_terminated : terminated b = true -> terminated b' = true.
Proof.
  unfold terminated. rewrite !negb_true_iff. intros T. apply not_true_is_false. intros E. apply existsb_exists in E. destruct E as (p & Ip & Fp). rewrite (rl_np H) in Ip.
  apply in_seq in Ip. pose proof (rl_g H (i := p) ltac:(lia)) as [G1 G2]. assert (existsb (free_at b) (seq 0 (b_np b)) = true); [|congruence].
  apply existsb_exists. exists (g p). split; [apply in_seq; lia|]. rewrite free_at_spec in *. intros j Lj.
  pose proof (rl_f H Lj) as [F1 F2]. specialize (Fp (f j)). rewrite (rl_np H) in Fp. specialize (Fp F1). rewrite <- G2, !(rl_C H) in Fp by lia. exact Fp.
Qed.

Section Sim.
Variable solve : nat -> nat -> mat K -> mat K -> option (mat K).
Variables (A : Type) (act : A -> nat -> field K -> A * field K).
Notation forward := (forward k0 k1 kadd kmul ksub kopp solve act).
Hypothesis SS : solver_sound k0 kadd kmul solve.
Hypothesis SR : solver_regular k0 kadd kmul solve.

Theorem rl_forward e s0 s1 source source' outs outs' w c : separate b -> num_act b = 0 -> w < e_num_wl e -> unmixed k0 e b w ->
  (forall t i, i < b_np b -> b_src b i = true -> at_ (source' t) w (rank (b_src b') (f i)) c = at_ (source t) w (rank (b_src b) i) c) ->
  forward e b s0 source = Ok outs -> forward e b' s1 source' = Ok outs' ->
  forall t p, t < e_num_t e -> p < b_np b -> b_det b p = true ->
  at_ (nth t outs' (zero_field k0)) w (rank (b_det b') (f p)) c = at_ (nth t outs (zero_field k0)) w (rank (b_det b) p) c.
Proof.
  intros Sep NA Lw U Hs HF HF' t p Lt Lp Dp.
  destruct (@forward_sound _ _ _ _ _ _ _ KR _ SS b _ act e s0 source outs w c Sep NA Lw U HF) as (a & o & HW & _ & HR).
  assert (NA' : num_act b' = 0) by (unfold num_act in *; rewrite (@rl_count (b_act b)); [exact NA|intros; now apply (rl_at H)]).
  assert (W' : waves e b' w (e_num_t e) (injected k0 b' source' w c) (fun t i => a t (g i)) (fun t i => o t (g i))).
  { intros t' i Lt' Li. pose proof (rl_waves HW Lt' Li) as [W1 W2]. split; [exact W1|]. rewrite W2. f_equal.
    unfold injected. rewrite (rl_np H) in Li. pose proof (rl_g H Li) as [G1 G2]. rewrite <- (proj1 (rl_at H G1)), G2.
    destruct (b_src b' i) eqn:E; [|reflexivity]. rewrite <- Hs; rewrite ?G2; auto. rewrite <- (proj1 (rl_at H G1)), G2. exact E. }
  destruct (forward_unique KR SS SR (rl_separate Sep) NA' Lw (rl_unmixed U) HF' W') as [_ HR'].
  rewrite HR'; [|exact Lt|rewrite (rl_np H); now apply (rl_f H)|rewrite (proj1 (proj2 (rl_at H Lp))); exact Dp].
  rewrite (proj2 (rl_f H Lp)). symmetry. now apply HR.
Qed.
Theorem rl_succeeds e s0 s1 source source' outs : solver_complete k0 kadd kmul solve -> timed e -> separate b -> terminated b = true -> num_det b <> 0 ->
  (forall w, w < e_num_wl e -> unmixed k0 e b w) ->
  forward e b s0 source = Ok outs -> exists outs', forward e b' s1 source' = Ok outs' /\ length outs' = e_num_t e.
Proof.
  intros SC HT Sep T D U HF.
  apply (forward_succeeds KR); auto.
  - now apply rl_separate.
  - now apply rl_terminated.
  - unfold num_det in *. rewrite (@rl_count (b_det b)); [exact D|intros; now apply (rl_at H)].
  - intros w Lw. split; [apply rl_unmixed; auto|apply rl_resonance]. exact (forward_regular KR SR Lw (U w Lw) HF).
Qed.
End Sim.
End F.

(** ** The same parts in another order *)
Notation comps := (list (string * net)).
Notation net_buf := (@net_buf (nat -> cx) Q (fun _ => c0) 0%Q).
Notation build := (@build (nat -> cx) Q (fun _ => c0) 0%Q).

(** Component and local number of port [p]. *)
Fixpoint place (cs : comps) (p : nat) : string * nat :=
  match cs with
  | [] => (EmptyString, 0)
  | (n, c) :: r => if p <? b_np c then (n, p) else place r (p - b_np c)
  end.
(** The corresponding port of [cs'] when component [n] is called [h n] there and its port [q] has number [fs n q]. *)
Definition move (h : string -> string) (fs : string -> nat -> nat) (cs cs' : comps) (p : nat) : nat :=
  match start_of (h (fst (place cs p))) cs' with Some s => s + fs (fst (place cs p)) (snd (place cs p)) | None => 0 end.

Lemma place_located (cs : comps) p n c q : located cs p n c q -> place cs p = (n, q).
Proof.
  intros (pre & post & -> & -> & Lq). induction pre as [|[m d] pre IH]; cbn [app place].
  - change (ports_before [] + q) with q. rewrite (proj2 (Nat.ltb_lt _ _) Lq). reflexivity.
  - rewrite ports_before_cons. destruct (Nat.ltb_spec (b_np d + ports_before pre + q) (b_np d)); [lia|].
    replace (b_np d + ports_before pre + q - b_np d) with (ports_before pre + q) by lia. exact IH.
Qed.
Lemma NoDup_app_fst (pre post : comps) n c : NoDup (map fst (pre ++ (n, c) :: post)) -> ~ In n (map fst pre).
Proof. rewrite map_app. cbn [map fst]. intros ND I. apply NoDup_remove_2 in ND. apply ND, in_or_app. now left. Qed.
Lemma move_located h fs (cs cs' : comps) p p' n c q c' : NoDup (map fst cs') -> located cs p n c q -> located cs' p' (h n) c' (fs n q) -> move h fs cs cs' p = p'.
Proof.
  intros ND H1 (pre & post & E & -> & Lq). unfold move. rewrite (place_located H1). cbn [fst snd]. rewrite E in *.
  now rewrite (proj2 (lookup_comp c' post (NoDup_app_fst ND))).
Qed.
Lemma part_unique (cs : comps) n c c' : NoDup (map fst cs) -> In (n, c) cs -> In (n, c') cs -> c = c'.
Proof.
  intros ND H1 H2. apply in_split in H1, H2. destruct H1 as (pre & post & E), H2 as (pre' & post' & E').
  rewrite E in E'. rewrite E in ND. destruct (decomp_unique ND eq_refl E') as (_ & -> & _). reflexivity.
Qed.
Lemma located_In (cs : comps) p n c q : located cs p n c q -> In (n, c) cs.
Proof. intros (pre & post & -> & _). apply in_elt. Qed.
Lemma located_fun (cs : comps) p n c q n' c' q' : located cs p n c q -> located cs p n' c' q' -> n = n' /\ c = c' /\ q = q'.
Proof.
  intros (pre & post & E & -> & L) (pre' & post' & E' & Ep & L'). destruct (located_unique E E' L L' Ep) as (_ & -> & -> & _ & ->). auto.
Qed.
Lemma located_same (cs : comps) p p' n c c' q : NoDup (map fst cs) -> located cs p n c q -> located cs p' n c' q -> p = p'.
Proof.
  intros ND (pre & post & E & -> & L) (pre' & post' & E' & -> & L'). rewrite E in E'. rewrite E in ND. destruct (decomp_unique ND eq_refl E') as (-> & _). reflexivity.
Qed.
(** What building establishes, without the checks that can fail. *)
Record is_net (cs : comps) (conns : list string) (b : net) : Prop := {
  in_np : b_np b = total_ports cs;
  in_C : forall i j, b_C b i j = true <-> inner cs i j \/ exists conn, In conn conns /\ (wires cs conn i j \/ wires cs conn j i);
  in_src : b_src b = block_vec (@b_src (nat -> cx) Q) false cs;
  in_det : b_det b = block_vec (@b_det (nat -> cx) Q) false cs;
  in_act : b_act b = block_vec (@b_act (nat -> cx) Q) false cs;
  in_S : b_S b = block_mat (@b_S (nat -> cx) Q) (fun _ => c0) cs;
  in_del : b_del b = block_vec (@b_del (nat -> cx) Q) 0%Q cs }.
Lemma built_net (cs : comps) conns b : NoDup (map fst cs) -> net_buf cs conns = Ok b -> is_net cs conns b.
Proof.
  intros ND Hb. destruct (net_buf_inv Hb) as (_ & _ & H1 & H2 & H3 & H4 & H5 & H6). constructor; auto. exact (net_buf_C ND Hb).
Qed.
Lemma net_S_located (cs : comps) conns (b : net) p n c q p' q' w : is_net cs conns b -> NoDup (map fst cs) -> located cs p n c q -> located cs p' n c q' ->
  b_S b p p' w = b_S c q q' w.
Proof.
  intros Hb ND (pre & post & E & -> & Lq) (pre' & post' & E' & -> & Lq'). rewrite (in_S Hb).
  assert (EP : ports_before pre' = ports_before pre).
  { rewrite E in E'. assert (NN : NoDup (map fst (pre ++ (n, c) :: post))) by (rewrite <- E; exact ND).
    destruct (decomp_unique NN eq_refl E') as (-> & _). reflexivity. }
  rewrite E, EP, block_mat_same; auto.
Qed.
Lemma S_apart (cs : comps) conns (b : net) i j n c q n' c' q' w : is_net cs conns b -> located cs i n c q -> located cs j n' c' q' -> n <> n' -> b_S b i j w = c0.
Proof.
  intros Hb H1 H2 NE. rewrite (in_S Hb).
  destruct (block_cases (@b_S (nat -> cx) Q) (fun _ => c0) (located_lt H1) (located_lt H2)) as [(m & d & r & r' & G1 & G2 & _)|[-> _]]; [|reflexivity].
  destruct (located_fun H1 G1) as (-> & _). destruct (located_fun H2 G2) as (-> & _). congruence.
Qed.

(** The same ports are wired, named by component. *)
Definition joins (l : comps) (cn : list string) (n1 : string) (q1 : nat) (n2 : string) (q2 : nat) : Prop :=
  exists conn i j c1 c2, In conn cn /\ (wires l conn i j \/ wires l conn j i) /\ located l i n1 c1 q1 /\ located l j n2 c2 q2.

(** Every component of one circuit has its counterpart in the other one. *)
Record matched (h hi : string -> string) (fs gs : string -> nat -> nat) (cs cs' : comps) : Prop := {
  mt_to : forall n c, In (n, c) cs -> hi (h n) = n /\ exists c', In (h n, c') cs' /\ relabels (fs n) (gs n) c c';
  mt_from : forall m c', In (m, c') cs' -> h (hi m) = m /\ exists c, In (hi m, c) cs /\ relabels (fs (hi m)) (gs (hi m)) c c' }.

Lemma relabels_sym f g (b b' : net) : relabels f g b b' -> relabels g f b' b.
Proof.
  intros H. constructor.
  - symmetry. apply (rl_np H).
  - intros i. rewrite (rl_np H). apply (rl_g H).
  - intros i. rewrite (rl_np H). apply (rl_f H).
  - intros i j. rewrite (rl_np H). intros Li Lj. destruct (rl_g H Li) as [G1 G2], (rl_g H Lj) as [G3 G4]. rewrite <- (rl_C H G1 G3), G2, G4. reflexivity.
  - intros i j w. rewrite (rl_np H). intros Li Lj. destruct (rl_g H Li) as [G1 G2], (rl_g H Lj) as [G3 G4]. rewrite <- (rl_S H w G1 G3), G2, G4. reflexivity.
  - intros i. rewrite (rl_np H). intros Li. destruct (rl_g H Li) as [G1 G2]. pose proof (rl_at H G1) as A. rewrite G2 in A. intuition congruence.
Qed.
Lemma relabels_id (b : net) : relabels (fun i => i) (fun i => i) b b.
Proof. constructor; auto. Qed.
Lemma relabels_trans f g f' g' (b b' b'' : net) : relabels f g b b' -> relabels f' g' b' b'' -> relabels (fun i => f' (f i)) (fun i => g (g' i)) b b''.
Proof.
  intros H H'. pose proof (rl_np H) as E. constructor.
  - now rewrite (rl_np H').
  - intros i Li. destruct (rl_f H Li) as [F1 F2]. rewrite <- E in F1. destruct (rl_f H' F1) as [F3 F4]. rewrite F4. split; [lia|exact F2].
  - intros i Li. rewrite <- E in Li. destruct (rl_g H' Li) as [F1 F2]. rewrite E in F1. destruct (rl_g H F1) as [F3 F4]. rewrite F4. auto.
  - intros i j Li Lj. rewrite <- (rl_C H Li Lj). apply (rl_C H'); rewrite E; now apply (rl_f H).
  - intros i j w Li Lj. rewrite <- (rl_S H w Li Lj). apply (rl_S H'); rewrite E; now apply (rl_f H).
  - intros i Li. pose proof (rl_at H Li) as A. assert (L : f i < b_np b') by (rewrite E; now apply (rl_f H)). pose proof (rl_at H' L) as B. intuition congruence.
Qed.

Lemma there h hi fs gs (cs cs' : comps) p n c q : NoDup (map fst cs') -> matched h hi fs gs cs cs' -> located cs p n c q ->
  exists c', relabels (fs n) (gs n) c c' /\ located cs' (move h fs cs cs' p) (h n) c' (fs n q).
Proof.
  intros ND' M H. pose proof (located_In H) as I. destruct (mt_to M I) as (_ & c' & I' & R). exists c'. split; [exact R|].
  apply in_split in I'. destruct I' as (pre & post & E).
  assert (L : located cs' (ports_before pre + fs n q) (h n) c' (fs n q)).
  { exists pre, post. destruct H as (? & ? & _ & _ & Lq). split; [exact E|]. split; [reflexivity|]. rewrite (rl_np R). now apply (rl_f R). }
  now rewrite (move_located ND' H L).
Qed.
Lemma matched_sym h hi fs gs (cs cs' : comps) : matched h hi fs gs cs cs' -> matched hi h (fun m => gs (hi m)) (fun m => fs (hi m)) cs' cs.
Proof.
  intros M. split.
  - intros m c' I. destruct (mt_from M I) as (E & c & Ic & R). split; [exact E|]. exists c. split; [exact Ic|]. now apply relabels_sym.
  - intros n c I. destruct (mt_to M I) as (E & c' & Ic & R). split; [exact E|]. exists c'. split; [exact Ic|]. rewrite E. now apply relabels_sym.
Qed.
Lemma located_total (l : comps) cn (d : net) p : is_net l cn d -> p < b_np d -> exists n c q, located l p n c q.
Proof. intros H L. rewrite (in_np H) in L. now apply located_exists. Qed.
Lemma back h hi fs gs (cs cs' : comps) p n c q : NoDup (map fst cs) -> NoDup (map fst cs') -> matched h hi fs gs cs cs' -> located cs p n c q ->
  move hi (fun m => gs (hi m)) cs' cs (move h fs cs cs' p) = p.
Proof.
  intros ND ND' M L. destruct (there ND' M L) as (c' & R & L'). apply move_located with (c := c') (n := h n) (q := fs n q) (c' := c); auto.
  rewrite (proj1 (mt_to M (located_In L))). destruct L as (pre & post & E & Ep & Lq). rewrite (proj2 (rl_f R Lq)). exists pre, post; auto.
Qed.
Lemma np_le h hi fs gs (cs cs' : comps) : NoDup (map fst cs) -> NoDup (map fst cs') -> matched h hi fs gs cs cs' -> total_ports cs <= total_ports cs'.
Proof.
  intros ND ND' M. rewrite <- (seq_length (total_ports cs) 0), <- (seq_length (total_ports cs') 0).
  rewrite <- (map_length (move h fs cs cs')). apply NoDup_incl_length.
  - apply (@NoDup_map_inv _ _ (move hi (fun m => gs (hi m)) cs' cs)). rewrite map_map. rewrite map_ext_in with (g := fun p => p); [rewrite map_id; apply seq_NoDup|].
    intros p Ip. apply in_seq in Ip. destruct (@located_exists _ _ cs p ltac:(lia)) as (n & c & q & L). now apply (back ND ND' M L).
  - intros x I. apply in_map_iff in I. destruct I as (p & <- & I). apply in_seq in I. destruct (@located_exists _ _ cs p ltac:(lia)) as (n & c & q & L).
    destruct (there ND' M L) as (c' & _ & L'). apply in_seq. pose proof (located_lt L'). lia.
Qed.

Theorem matched_relabel h hi fs gs (cs cs' : comps) conns conns' (b b' : net) :
  NoDup (map fst cs) -> NoDup (map fst cs') -> matched h hi fs gs cs cs' ->
  is_net cs conns b -> is_net cs' conns' b' ->
  (forall n1 q1 n2 q2, joins cs conns n1 q1 n2 q2 -> joins cs' conns' (h n1) (fs n1 q1) (h n2) (fs n2 q2)) ->
  (forall n1 q1 n2 q2, joins cs' conns' n1 q1 n2 q2 -> joins cs conns (hi n1) (gs (hi n1) q1) (hi n2) (gs (hi n2) q2)) ->
  relabels (move h fs cs cs') (move hi (fun m => gs (hi m)) cs' cs) b b'.
Proof.
  intros ND ND' M Hb Hb' HJ HJ'. pose proof (matched_sym M) as M'.
  pose proof (in_np Hb) as Nb. pose proof (in_np Hb') as Nb'.
  assert (EN : b_np b' = b_np b).
  { rewrite Nb, Nb'. pose proof (np_le ND ND' M). pose proof (np_le ND' ND M'). lia. }
  assert (T : forall p, p < b_np b -> exists n c c' q, located cs p n c q /\ relabels (fs n) (gs n) c c' /\ located cs' (move h fs cs cs' p) (h n) c' (fs n q)).
  { intros p Lp. destruct (located_total Hb Lp) as (n & c & q & L). destruct (there ND' M L) as (c' & R & L'). exists n, c, c', q. auto. }
  constructor.
  - exact EN.
  - intros i Li. destruct (T i Li) as (n & c & c' & q & L1 & R & L2). pose proof (located_lt L2) as L. rewrite <- Nb', EN in L.
    split; [exact L|]. now apply (back ND ND' M L1).
  - intros i Li. rewrite <- EN in Li. destruct (located_total Hb' Li) as (n & c & q & L). destruct (there ND M' L) as (c' & _ & L').
    pose proof (located_lt L') as LL. rewrite <- Nb in LL. split; [exact LL|].
    pose proof (back ND' ND M' L) as B. cbn beta in B. rewrite <- B at 2.
    destruct (there ND M' L) as (c2 & R2 & L2). unfold move at 1 3. rewrite (place_located L2). cbn [fst snd].
    now rewrite (proj1 (mt_from M (located_In L))).
  - intros i j Li Lj. destruct (T i Li) as (n & c & c' & q & L1 & R & L2), (T j Lj) as (m & d & d' & r & M1 & Q & M2).
    apply eq_true_iff_eq. rewrite (in_C Hb), (in_C Hb').
    assert (HI : inner cs' (move h fs cs cs' i) (move h fs cs cs' j) <-> inner cs i j).
    { destruct L1 as (pre & post & E & Ei & Lq), L2 as (pre' & post' & E' & Ei' & Lq'). rewrite (inner_located j E Ei Lq), (inner_located _ E' Ei' Lq').
      destruct M1 as (qre & qost & F & Fj & Lr), M2 as (qre' & qost' & F' & Fj' & Lr'). split; intros (j' & Lj' & Ej & HC).
      - rewrite Fj' in Ej. destruct (located_unique F' E' Lr' Lj' Ej) as (-> & Eh & -> & -> & <-).
        assert (m = n) as ->.
        { rewrite <- (proj1 (mt_to M (n := m) (c := d) ltac:(rewrite F; apply in_elt))), Eh. apply (mt_to M (n := n) (c := c)). rewrite E; apply in_elt. }
        rewrite E in F. rewrite E in ND. destruct (decomp_unique ND eq_refl F) as (<- & <- & <-).
        exists r. split; [exact Lr|]. split; [exact Fj|]. rewrite <- HC. symmetry. now apply (rl_C R).
      - rewrite Fj in Ej. destruct (located_unique F E Lr Lj' Ej) as (-> & -> & -> & -> & ->).
        rewrite E' in F'. rewrite E' in ND'. destruct (decomp_unique ND' eq_refl F') as (<- & <- & <-).
        exists (fs n j'). split; [exact Lr'|]. split; [exact Fj'|]. rewrite <- HC. now apply (rl_C R). }
    rewrite HI. assert (HW : (exists conn, In conn conns' /\ (wires cs' conn (move h fs cs cs' i) (move h fs cs cs' j) \/ wires cs' conn (move h fs cs cs' j) (move h fs cs cs' i)))
       <-> (exists conn, In conn conns /\ (wires cs conn i j \/ wires cs conn j i))); [|rewrite HW; reflexivity].
    assert (Lq : q < b_np c) by (destruct L1 as (? & ? & ? & ? & ?); auto).
    assert (Lr : r < b_np d) by (destruct M1 as (? & ? & ? & ? & ?); auto).
    split.
    + intros (conn & Ic & W). destruct (HJ' (h n) (fs n q) (h m) (fs m r)) as (cn & i' & j' & c1 & c2 & In' & W' & G1 & G2).
      { exists conn, (move h fs cs cs' i), (move h fs cs cs' j), c', d'. auto. }
      rewrite (proj1 (mt_to M (located_In L1))), (proj2 (rl_f R Lq)) in G1. rewrite (proj1 (mt_to M (located_In M1))), (proj2 (rl_f Q Lr)) in G2.
      rewrite (located_same ND L1 G1), (located_same ND M1 G2). eauto.
    + intros (conn & Ic & W). destruct (HJ n q m r) as (cn & i' & j' & c1 & c2 & In' & W' & G1 & G2).
      { exists conn, i, j, c, d. auto. }
      rewrite (located_same ND' L2 G1), (located_same ND' M2 G2). eauto.
  - intros i j w Li Lj. destruct (T i Li) as (n & c & c' & q & L1 & R & L2), (T j Lj) as (m & d & d' & r & M1 & Q & M2).
    destruct (string_dec n m) as [->|NE].
    + pose proof (part_unique ND (located_In L1) (located_In M1)) as <-. pose proof (part_unique ND' (located_In L2) (located_In M2)) as <-.
      rewrite (net_S_located w Hb ND L1 M1), (net_S_located w Hb' ND' L2 M2).
      destruct L1 as (? & ? & ? & ? & Lq), M1 as (? & ? & ? & ? & Lr). now apply (rl_S R).
    + rewrite (S_apart w Hb L1 M1 NE). rewrite (S_apart w Hb' L2 M2); [reflexivity|].
      intros E. apply NE. rewrite <- (proj1 (mt_to M (located_In L1))), E. apply (mt_to M (located_In M1)).
  - intros i Li. destruct (T i Li) as (n & c & c' & q & L1 & R & L2).
    rewrite (in_src Hb), (in_src Hb'), (in_det Hb), (in_det Hb'), (in_act Hb), (in_act Hb'), (in_del Hb), (in_del Hb'). rewrite !(block_vec_located _ _ L1), !(block_vec_located _ _ L2).
    destruct L1 as (? & ? & ? & ? & Lq). now apply (rl_at R).
Qed.


(** ** The same links *)

(** The stripped parts of a connection (network.py:296-297). *)
Notation parts c := (map strip (split_colon c)).

Lemma free_list_fun (c : net) l fl fl' : free_list c l fl -> free_list c l fl' -> fl = fl'.
Proof. rewrite !free_list_iff. congruence. Qed.
Lemma stands_sym f g (c c' : net) : order_ok c -> stands_for f g c c' -> stands_for g f c' c.
Proof.
  intros OK [R F]. split; [now apply relabels_sym|]. intros fl' H'.
  assert (HF : free_list c (b_order c) (filter (free_at c) (b_order c))) by (now apply free_list_iff).
  pose proof (F _ HF) as H2. rewrite (free_list_fun H' H2), map_map. rewrite map_ext_in with (g := fun i => i); [now rewrite map_id|].
  intros i I. apply filter_In in I. destruct I as [I _]. apply (rl_f R). now apply order_ok_lt.
Qed.
Lemma stands_resolves f g (c c' : net) k q : stands_for f g c c' -> resolves c k q -> resolves c' k (f q).
Proof.
  intros [R F] (fl & Hf & H). exists (map f fl). split; [now apply F|]. rewrite map_length.
  destruct H as [[H1 H2]|(H1 & H2 & H3)]; [left|right]; repeat split; auto; now apply map_nth_error.
Qed.

Lemma same_link_int h c c' n : same_link h c c' -> py_int n = None -> In n (parts c) -> In (h n) (parts c').
Proof.
  intros [n1 p1 n2 p2 E I1 I2 [E'|E']|m p z E I1 I2 E'] HN HI; rewrite E in HI; rewrite E'; cbn [In] in *;
    repeat (match type of HI with _ \/ _ => destruct HI as [HI|HI] end; [subst; solve [tauto|exfalso; auto]|]); tauto.
Qed.
Lemma mods_parts h hi fs gs (mods mods' : comps) conns conns' (cs cs' : comps) : same_mods h hi fs gs mods mods' -> same_links h hi conns conns' ->
  sub_components mods conns cs -> sub_components mods' conns' cs' ->
  forall n c, In (n, c) cs -> hi (h n) = n /\ exists c', In (h n, c') cs' /\ stands_for (fs n) (gs n) c c'.
Proof.
  intros SM SK H H' n c I. destruct (sm_to SM (sc_from H I)) as (E & HI & c' & A & SF). split; [exact E|]. exists c'. split; [|exact SF].
  assert (In (h n) (map fst cs')) as I'.
  { apply (sc_used H'). pose proof (proj1 (sc_used H n) (in_map fst _ _ I)) as [E1 (cn & Ic & Ip)]. split; [now apply HI|].
    destruct (sk_to SK Ic) as (d & Id & SL). exists d. split; [exact Id|]. eapply same_link_int; eassumption. }
  apply in_map_iff in I'. destruct I' as ([m d] & E2 & I'). cbn in E2. subst m. pose proof (sc_from H' I') as E3. pose proof (eq_trans (eq_sym A) E3) as E4. injection E4 as ->. exact I'.
Qed.
Lemma mods_sym h hi fs gs (mods mods' : comps) : (forall n c, assoc String.eqb n mods = Some c -> order_ok c) -> same_mods h hi fs gs mods mods' ->
  same_mods hi h (fun m => gs (hi m)) (fun m => fs (hi m)) mods' mods.
Proof.
  intros OK SM. split.
  - intros m c' I. destruct (sm_from SM I) as (E & HI & c & A & SF). repeat split; auto. exists c. split; [exact A|]. apply stands_sym; eauto.
  - intros n c I. destruct (sm_to SM I) as (E & HI & c' & A & SF). repeat split; auto. exists c'. split; [exact A|]. rewrite E. apply stands_sym; eauto.
Qed.
Lemma links_sym h hi conns conns' : same_links h hi conns conns' -> same_links hi h conns' conns.
Proof. intros [A B]; now split. Qed.

Lemma names_moved h hi fs gs (cs cs' : comps) n k p : NoDup (map fst cs') -> orders_ok cs -> matched h hi fs gs cs cs' ->
  (forall n c c', In (n, c) cs -> In (h n, c') cs' -> stands_for (fs n) (gs n) c c') ->
  names_port cs n k p -> names_port cs' (h n) k (move h fs cs cs' p).
Proof.
  intros ND' HO M HF HN. destruct (names_port_located HO HN) as (c & q & L & R & _).
  destruct (there ND' M L) as (c' & _ & L'). pose proof (stands_resolves (HF n c c' (located_In L) (located_In L')) R) as R'.
  destruct L' as (pre & post & E & Ep & Lq). exists pre, c', post, (fs n q). auto.
Qed.
Lemma links_joins h hi fs gs (cs cs' : comps) conns conns' : NoDup (map fst cs') -> orders_ok cs -> matched h hi fs gs cs cs' ->
  (forall n c c', In (n, c) cs -> In (h n, c') cs' -> stands_for (fs n) (gs n) c c') ->
  (forall c, In c conns -> exists c', In c' conns' /\ same_link h c c') ->
  forall n1 q1 n2 q2, joins cs (map clean_conn conns) n1 q1 n2 q2 -> joins cs' (map clean_conn conns') (h n1) (fs n1 q1) (h n2) (fs n2 q2).
Proof.
  intros ND' HO M HF HK n1 q1 n2 q2 (cn & i & j & c1 & c2 & I & W & L1 & L2). apply in_map_iff in I. destruct I as (c & <- & I).
  destruct (HK c I) as (c' & I' & SL). destruct (there ND' M L1) as (c1' & _ & L1'), (there ND' M L2) as (c2' & _ & L2').
  exists (clean_conn c'), (move h fs cs cs' i), (move h fs cs cs' j), c1', c2'.
  split; [now apply in_map|]. split; [|split; assumption].
  assert (HW : forall i j, wires cs (clean_conn c) i j ->
    wires cs' (clean_conn c') (move h fs cs cs' i) (move h fs cs cs' j) \/ wires cs' (clean_conn c') (move h fs cs cs' j) (move h fs cs cs' i)).
  { intros i0 j0 (m1 & s1 & z1 & m2 & s2 & z2 & W0 & W1 & W2 & W3 & W4). rewrite split_clean in W0.
    apply (names_moved ND' HO M HF) in W3. apply (names_moved ND' HO M HF) in W4.
    destruct SL as [x1 p1 x2 p2 E I1 I2 [E'|E']|x p z E I1 I2 E']; rewrite E in W0; [injection W0 as; subst..|discriminate W0].
    - left. exists (h m1), s1, z1, (h m2), s2, z2. rewrite split_clean, E'. auto 10.
    - right. exists (h m2), s2, z2, (h m1), s1, z1. rewrite split_clean, E'. auto 10. }
  destruct W as [W|W]; apply HW in W; tauto.
Qed.

Theorem same_relabel h hi fs gs (mods mods' cs cs' : comps) conns conns' (b b' : net) :
  (forall n c, In (n, c) mods -> order_ok c) -> (forall n c, In (n, c) mods' -> order_ok c) ->
  same_mods h hi fs gs mods mods' -> same_links h hi conns conns' -> sub_components mods conns cs -> sub_components mods' conns' cs' ->
  net_buf cs (map clean_conn conns) = Ok b -> net_buf cs' (map clean_conn conns') = Ok b' ->
    relabels (move h fs cs cs') (move hi (fun m => gs (hi m)) cs' cs) b b' /\ matched h hi fs gs cs cs'
    /\ (forall n c c', In (n, c) cs -> In (h n, c') cs' -> stands_for (fs n) (gs n) c c').
Proof.
  intros HO HO' SM SK H H' HN HN'.
  assert (SM' : same_mods hi h (fun m => gs (hi m)) (fun m => fs (hi m)) mods' mods).
  { apply mods_sym; [|exact SM]. intros n c A. apply (HO n). now apply assoc_In_s. }
  pose proof (mods_parts SM SK H H') as P. pose proof (mods_parts SM' (links_sym SK) H' H) as P'.
  assert (OK : orders_ok cs) by (intros n c I; apply (HO n), assoc_In_s, (sc_from H), I).
  assert (OK' : orders_ok cs') by (intros n c I; apply (HO' n), assoc_In_s, (sc_from H'), I).
  assert (M : matched h hi fs gs cs cs').
  { split.
    - intros n c I. destruct (P n c I) as (E & c' & I' & SF). split; [exact E|]. exists c'. split; [exact I'|]. apply (sf_same SF).
    - intros m c' I. destruct (P' m c' I) as (E & c & I' & SF). split; [exact E|]. exists c. split; [exact I'|]. apply relabels_sym, (sf_same SF). }
  assert (HF : forall n c c', In (n, c) cs -> In (h n, c') cs' -> stands_for (fs n) (gs n) c c').
  { intros n c c' I I'. destruct (P n c I) as (_ & d & Id & SF). now rewrite (part_unique (sc_once H') I' Id). }
  assert (HF' : forall m c' c, In (m, c') cs' -> In (hi m, c) cs -> stands_for (gs (hi m)) (fs (hi m)) c' c).
  { intros m c' c I I'. destruct (P' m c' I) as (_ & d & Id & SF). now rewrite (part_unique (sc_once H) I' Id). }
  split; [|split; [exact M|exact HF]].
  apply matched_relabel with (conns := map clean_conn conns) (conns' := map clean_conn conns'); auto; try (eapply sc_once; eassumption);
    try (apply built_net; [eapply sc_once; eassumption|assumption]).
  - apply links_joins with (hi := hi) (gs := gs); auto; [eapply sc_once; eassumption|apply (sk_to SK)].
  - apply (@links_joins hi h (fun m => gs (hi m)) (fun m => fs (hi m))); auto; [eapply sc_once; eassumption|now apply matched_sym|apply (sk_from SK)].
Qed.

(** ** The ports a network shows to its parent *)
Lemma ext_list_In (cs : comps) conns es z p : ext_list cs conns es -> NoDup (map fst cs) -> In (z, p) es <-> exists c, In c conns /\ numbers cs c p z.
Proof.
  intros H ND. induction H as [|c cn p' z' es' N H IH|c cn es' L H IH].
  - split; [intros []|intros (c & [] & _)].
  - cbn [In]. rewrite IH. split.
    + intros [E|(d & I & N')]; [injection E as -> ->; exists c; auto|exists d; auto].
    + intros (d & [->|I] & N'); [left|right; eauto].
      destruct N as (n & s0 & k & t & E & E1 & E2 & E3), N' as (n' & s' & k' & t' & F & F1 & F2 & F3).
      rewrite E in F. injection F as <- <- <-. rewrite E1 in F1. injection F1 as <-. rewrite E2 in F2. injection F2 as <-. now rewrite (names_port_fun ND E3 F3).
  - rewrite IH. split; [intros (d & I & N); exists d; split; [now right|exact N]|].
    intros (d & [->|I] & N); [|eauto]. destruct N as (n & s0 & k & t & E & _). rewrite E in L. discriminate.
Qed.
Lemma rl_unconnected f g (b b' : net) p : relabels f g b b' -> p < b_np b -> unconnected b p -> unconnected b' (f p).
Proof.
  intros R Lp U j Lj. rewrite (rl_np R) in Lj. destruct (rl_g R Lj) as [G1 G2]. rewrite <- G2, !(rl_C R) by auto. now apply U.
Qed.
Lemma all_numbered (cs : comps) conns es (b : net) : NoDup (map fst cs) -> (forall n c, In (n, c) cs -> b_order c = seq 0 (b_np c)) ->
  net_buf cs conns = Ok b -> ext_list cs conns es -> numbered es (total_ports cs) -> (forall z p, In (z, p) es -> unconnected b p) ->
  (forall p, p < b_np b -> unconnected b p -> In p (map snd es)) ->
  exists ext, free_list b (b_order b) ext /\ forall j p, nth_error ext j = Some p <-> In (Z.of_nat j, p) es.
Proof.
  intros ND HI Hb HE HN HU HA. destruct (net_external_ports ND HI Hb HE HN HU) as (ext & rest & F & HX & _ & HR).
  assert (rest = []) as ->; [|exists ext; rewrite app_nil_r in F; auto].
  destruct rest as [|p rest]; [reflexivity|exfalso]. destruct (proj1 (HR p) (or_introl eq_refl)) as (Lp & Up & NI). apply NI.
  pose proof (HA p Lp Up) as I. apply in_map_iff in I. destruct I as ([z p'] & E & I). cbn in E. subst p'.
  assert (Z : In z (map Z.of_nat (seq 0 (length es)))) by (apply (Permutation_in _ (nb_keys HN)); apply in_map_iff; exists (z, p); auto).
  apply in_map_iff in Z. destruct Z as (j & <- & _). apply HX in I. eapply nth_error_In; eassumption.
Qed.
Lemma links_numbers h hi fs gs (cs cs' : comps) conns conns' p z : NoDup (map fst cs') -> orders_ok cs -> matched h hi fs gs cs cs' ->
  (forall n c c', In (n, c) cs -> In (h n, c') cs' -> stands_for (fs n) (gs n) c c') ->
  (forall c, In c conns -> exists c', In c' conns' /\ same_link h c c') ->
  (exists c, In c (map clean_conn conns) /\ numbers cs c p z) -> exists c, In c (map clean_conn conns') /\ numbers cs' c (move h fs cs cs' p) z.
Proof.
  intros ND' HO M HF HK (cn & I & N). apply in_map_iff in I. destruct I as (c & <- & I).
  destruct (HK c I) as (c' & I' & SL). exists (clean_conn c'). split; [now apply in_map|].
  destruct N as (n & s0 & k & t & E & E1 & E2 & E3). rewrite split_clean in E. apply (names_moved ND' HO M HF) in E3.
  destruct SL as [x1 p1 x2 p2 F I1 I2 _|x y v F I1 I2 F']; rewrite F in E; [discriminate E|injection E as -> -> ->].
  exists (h n), s0, k, t. rewrite split_clean, F'. auto.
Qed.
Lemma nth_error_same {A} (l l' : list A) : (forall j, nth_error l j = nth_error l' j) -> l = l'.
Proof.
  revert l'. induction l as [|x l IH]; intros [|y l'] H; [reflexivity|discriminate (H 0)|discriminate (H 0)|].
  pose proof (H 0) as E. injection E as ->. f_equal. apply IH. intros j. exact (H (S j)).
Qed.
Theorem same_stands h hi fs gs (mods mods' cs cs' : comps) conns conns' es es' (b b' : net) :
  (forall n c, In (n, c) mods \/ In (n, c) mods' -> b_order c = seq 0 (b_np c)) ->
  same_mods h hi fs gs mods mods' -> same_links h hi conns conns' -> sub_components mods conns cs -> sub_components mods' conns' cs' ->
  net_buf cs (map clean_conn conns) = Ok b -> net_buf cs' (map clean_conn conns') = Ok b' ->
  ext_list cs (map clean_conn conns) es -> ext_list cs' (map clean_conn conns') es' -> numbered es (total_ports cs) -> numbered es' (total_ports cs') ->
  (forall p, p < b_np b -> unconnected b p <-> In p (map snd es)) ->
  exists f g, stands_for f g b b'.
Proof.
  intros HI SM SK H H' Nb Nb' E1 E1' E2 E2' E34.
  assert (OK : forall n c, In (n, c) mods -> order_ok c) by (intros n c I; unfold order_ok; rewrite (HI n c (or_introl I)); apply Permutation_refl).
  assert (OK' : forall n c, In (n, c) mods' -> order_ok c) by (intros n c I; unfold order_ok; rewrite (HI n c (or_intror I)); apply Permutation_refl).
  destruct (same_relabel OK OK' SM SK H H' Nb Nb') as (R & M & HF).
  assert (NE : b_np b = total_ports cs) by apply (net_buf_inv Nb).
  assert (E3 : forall z p, In (z, p) es -> unconnected b p).
  { intros z p I. apply E34; [rewrite NE; exact (nb_lt E2 I)|]. apply in_map_iff. exists (z, p). auto. }
  assert (E4 : forall p, p < b_np b -> unconnected b p -> In p (map snd es)) by (intros p Lp; apply (E34 p Lp)).
  pose proof (sc_once H) as ND. pose proof (sc_once H') as ND'.
  assert (HO : orders_ok cs) by (intros n c I; apply (OK n), assoc_In_s, (sc_from H), I).
  assert (HO' : orders_ok cs') by (intros n c I; apply (OK' n), assoc_In_s, (sc_from H'), I).
  assert (T : forall z p, In (z, p) es -> In (z, move h fs cs cs' p) es').
  { intros z p I. apply (ext_list_In _ _ E1' ND'). apply (ext_list_In _ _ E1 ND) in I. revert I. apply (links_numbers ND' HO M HF (sk_to SK)). }
  pose proof (matched_sym M) as M'.
  assert (HF' : forall m c' c, In (m, c') cs' -> In (hi m, c) cs -> stands_for (gs (hi m)) (fs (hi m)) c' c).
  { intros m c' c I I'. apply stands_sym; [now apply (HO (hi m))|]. apply (HF (hi m)); [exact I'|]. now rewrite (proj1 (mt_from M I)). }
  assert (T' : forall z p, In (z, p) es' -> In (z, move hi (fun m => gs (hi m)) cs' cs p) es).
  { intros z p I. apply (ext_list_In _ _ E1 ND). apply (ext_list_In _ _ E1' ND') in I. revert I. apply (links_numbers ND HO' M' HF' (sk_from SK)). }
  exists (move h fs cs cs'), (move hi (fun m => gs (hi m)) cs' cs). split; [exact R|].
  intros fl HL. destruct (all_numbered ND (fun n c I => HI n c (or_introl (assoc_In_s (sc_from H I)))) Nb E1 E2 E3 E4) as (ext & HX & NX).
  rewrite (free_list_fun HL HX). clear fl HL.
  assert (Np : b_np b = total_ports cs) by apply (net_buf_inv Nb). assert (Np' : b_np b' = total_ports cs') by apply (net_buf_inv Nb').
  destruct (all_numbered ND' (fun n c I => HI n c (or_intror (assoc_In_s (sc_from H' I)))) Nb' E1' E2') as (ext' & HX' & NX').
  - intros z p I. assert (Lp : p < b_np b) by (rewrite <- (rl_np R), Np'; eapply nb_lt; eassumption).
    destruct (rl_g R Lp) as [G1 G2]. rewrite <- G2. apply (rl_unconnected R G1). eapply E3, T', I.
  - intros p Lp U. rewrite (rl_np R) in Lp. destruct (rl_g R Lp) as [G1 G2].
    assert (U' : unconnected b (move hi (fun m => gs (hi m)) cs' cs p)) by (apply (rl_unconnected (relabels_sym R)); [now rewrite (rl_np R)|exact U]).
    pose proof (E4 _ G1 U') as I. apply in_map_iff in I. destruct I as ([z q] & E & I). cbn in E. subst q. apply T in I. rewrite G2 in I. apply in_map_iff. exists (z, p). auto.
  - replace (map (move h fs cs cs') ext) with ext'; [exact HX'|].
    apply nth_error_same. intros j. rewrite nth_error_map.
    destruct (nth_error ext j) as [p|] eqn:E.
    + cbn. apply NX'. apply T. now apply NX.
    + cbn. destruct (nth_error ext' j) as [p|] eqn:E'; [|reflexivity]. apply NX' in E'. apply T' in E'. apply NX in E'. congruence.
Qed.
End R.
