(** Energy and reciprocity of simulated networks. *)
From Coq Require Import QArith Ring Permutation Reals Lra.
From Verif Require Import Base PyStr NetModel NetSpec NetProofs WireProofs NetBuild SimModel SimAlg SimSpec
  SimNodes SimProofs SimMore SimRegular CircuitSpec CircuitProofs EnergyProofs.
Set Implicit Arguments.
Unset Strict Implicit.
Local Open Scope list_scope.
Local Open Scope nat_scope.

Section Terms.
Variables (K : Type) (k0 : K).
Notation cx := (prod K K).
Notation net := (net K).
Notation c0 := (c0 k0).
Variables (term : string -> bool) (cs : list (string * net)) (conns : list string) (b : net) (w : nat).
Hypothesis Hb : @net_buf (nat -> cx) Q (fun _ => c0) 0%Q cs conns = Ok b.

Lemma term_located i : i < b_np b -> exists n c q, located cs i n c q /\ In (n, c) cs /\ q < b_np c /\ term_ports term cs i = term n.
Proof.
  intros L. destruct (net_buf_inv Hb) as (_ & _ & E & _). rewrite E in L.
  destruct (located_exists L) as (n & c & q & H). exists n, c, q. split; [exact H|].
  unfold term_ports. rewrite (owner_located H). destruct H as (pre & post & E' & _ & Lq).
  split; [rewrite E'; apply in_elt|auto].
Qed.

(** Terminators scatter nothing. *)
Lemma term_dark : (forall n c, In (n, c) cs -> term n = true -> dark k0 c w) ->
  forall i j, i < b_np b -> j < b_np b -> term_ports term cs i = true -> b_S b i j w = c0.
Proof.
  intros HD i j Li Lj HT.
  destruct (S_cases Hb w Li Lj) as [(n & c & q & q' & H1 & H2 & L1 & L2 & I & -> & _)|[-> _]]; auto.
  apply (HD n c I); auto. unfold term_ports in HT. rewrite (owner_located H1) in HT. exact HT.
Qed.

(** Only terminators have sources and detectors. *)
Lemma term_plain : (forall n c, In (n, c) cs -> term n = false -> plain c) ->
  forall i, i < b_np b -> term_ports term cs i = false -> b_src b i = false /\ b_det b i = false /\ b_act b i = false.
Proof.
  intros HP i Li HT. destruct (term_located Li) as (n & c & q & H & I & Lq & E). rewrite E in HT.
  destruct (net_buf_inv Hb) as (_ & _ & _ & -> & -> & -> & _). rewrite !(block_vec_located _ _ H).
  apply (HP n c I HT q Lq).
Qed.
End Terms.

Section Cons.
Variables (K : Type) (k0 k1 : K) (kadd kmul ksub : K -> K -> K) (kopp : K -> K).
Hypothesis KR : ring_theory k0 k1 kadd kmul ksub kopp (@eq K).
Add Ring Kring : KR.
Notation cx := (prod K K).
Notation c0 := (c0 k0).
Variable solve : nat -> nat -> mat K -> mat K -> option (mat K).
Variables (A : Type) (act : A -> nat -> field K -> A * field K).
Notation forward := (forward k0 k1 kadd kmul ksub kopp solve act).
Notation waves := (waves k0 kadd kmul ksub).
Notation build := (@build (nat -> cx) Q (fun _ => c0) 0%Q).
Hypothesis SS : solver_sound k0 kadd kmul solve.

(** C25 *)
Theorem forward_conserves (term : string -> bool) (mods : list (string * net K)) conns (b : net K) e s0 source outs w c :
  build mods conns = Ok b ->
  (forall n d, In (n, d) mods -> if term n then dark k0 d w else lossless k0 kadd kmul ksub d w /\ plain d) ->
  sym_C b -> one_partner b -> flags_ok b -> num_act b = 0 -> w < e_num_wl e -> unmixed k0 e b w ->
  forward e b s0 source = Ok outs ->
  exists cs a o, sub_components mods conns cs /\
    waves e b w (e_num_t e) (injected k0 b source w c) a o /\ reads k0 b outs w c (e_num_t e) a /\
    (forall T, T <= e_num_t e ->
      kadd (energy_on k0 kadd kmul (term_ports term cs) (b_np b) T a)
           (stored k0 kadd kmul e b (fun i => negb (term_ports term cs i)) T a)
      = sent k0 kadd kmul (num_src b) T source w c) /\
    (e_dt e = None -> energy_on k0 kadd kmul (term_ports term cs) (b_np b) (e_num_t e) a
      = sent k0 kadd kmul (num_src b) (e_num_t e) source w c).
Proof.
  intros HB HM SY OP FL NA Lw U HF. destruct (build_inv HB) as (cs & Hs & Hb).
  assert (Sep : separate b) by (intros i Li; specialize (FL i Li); tauto).
  assert (HC : forall n d, In (n, d) cs -> if term n then dark k0 d w else lossless k0 kadd kmul ksub d w /\ plain d).
  { intros n d I. apply HM. apply assoc_In_s. exact (sc_from Hs I). }
  destruct (forward_sound KR SS c Sep NA Lw U HF) as (a & o & W & R).
  assert (CV : forall T, T <= e_num_t e -> kadd (energy_on k0 kadd kmul (term_ports term cs) (b_np b) T a)
           (stored k0 kadd kmul e b (fun i => negb (term_ports term cs i)) T a)
      = sent k0 kadd kmul (num_src b) T source w c).
  { intros T LT. rewrite <- (sent_eq KR). eapply (conservation KR OP SY).
    - eapply term_dark; [exact Hb|]. intros n d I T1. specialize (HC n d I). rewrite T1 in HC. exact HC.
    - eapply waves_le; [exact LT|exact W].
    - intros t i Li E. unfold injected.
      destruct (@term_plain K k0 term cs _ b Hb) with (i := i) as (-> & _); auto.
      intros n d I T1. specialize (HC n d I). rewrite T1 in HC. apply HC.
    - apply (net_lossless_terms KR Hb). intros n d I. specialize (HC n d I). destruct (term n); [exact HC|apply HC]. }
  exists cs, a, o. split; [exact Hs|]. split; [exact W|]. split; [exact R|]. split; [exact CV|].
  intros Ed. rewrite <- CV by auto. rewrite (stored_freq KR (e := e)); [ring|exact Ed|].
  intros i Li E. apply negb_true_iff in E.
  destruct (@term_plain K k0 term cs _ b Hb) with (i := i) as (-> & -> & ->); auto.
  intros n d I T1. specialize (HC n d I). rewrite T1 in HC. apply HC.
Qed.

(** C27 *)
Definition delta (A : nat) (f : nat -> cx) (t i : nat) : cx := if i =? A then f t else c0.

Notation csum := (lsum c0 (cadd kadd)).
Notation cmul := (cmul kadd kmul ksub).
Notation cadd := (cadd kadd).
Let CR := CircuitProofs.CR KR.
Add Ring Cring : CR.

Lemma conv_delta_l b P f (y : nat -> nat -> cx) T : P < b_np b ->
  conv k0 kadd kmul ksub b (delta P f) y T = csum (fun s => cmul (f s) (y (T - s) P)) (seq 0 (S T)).
Proof.
  intros L. unfold conv. apply lsum_ext. intros s _. unfold pair, delta.
  rewrite (@lsum_ext _ c0 cadd _ _ (fun i => if i =? P then cmul (f s) (y (T - s) i) else c0))
    by (intros i _; destruct (i =? P); ring).
  rewrite (lsum_one CR). destruct (Nat.ltb_spec P (b_np b)); [reflexivity|lia].
Qed.
Lemma conv_delta_r b P f (y : nat -> nat -> cx) T : P < b_np b ->
  conv k0 kadd kmul ksub b y (delta P f) T = csum (fun s => cmul (f (T - s)) (y s P)) (seq 0 (S T)).
Proof.
  intros L. unfold conv. apply lsum_ext. intros s _. unfold pair, delta.
  rewrite (@lsum_ext _ c0 cadd _ _ (fun i => if i =? P then cmul (f (T - s)) (y s i) else c0))
    by (intros i _; destruct (i =? P); ring).
  rewrite (lsum_one CR). destruct (Nat.ltb_spec P (b_np b)); [reflexivity|lia].
Qed.

Lemma waves_ext e b w T src src' a o : (forall t i, t < T -> i < b_np b -> src t i = src' t i) ->
  waves e b w T src a o -> waves e b w T src' a o.
Proof. intros E H t i Lt Li. destruct (H t i Lt Li) as [H1 H2]. split; [exact H1|]. rewrite H2, E by auto. reflexivity. Qed.

Definition one_channel (k : nat) (f : nat -> cx) (t : nat) : field K :=
  (fun _ j _ => if j =? k then fst (f t) else k0, fun _ j _ => if j =? k then snd (f t) else k0).

Lemma rank_inj f i j : f i = true -> f j = true -> rank f i = rank f j -> i = j.
Proof.
  intros Fi Fj. assert (H : forall i j, f i = true -> i < j -> rank f i < rank f j).
  { clear. intros i j Fi L. unfold rank. replace j with (i + (1 + (j - i - 1))) by lia.
    rewrite seq_add, filter_app, app_length. cbn [Nat.add seq map filter]. rewrite Nat.add_0_r, Fi. cbn [length]. lia. }
  intros E. destruct (lt_eq_lt_dec i j) as [[L|L]|L]; auto.
  - specialize (H i j Fi L). lia.
  - specialize (H j i Fj L). lia.
Qed.

Lemma injected_one b source w c T P f : P < b_np b -> b_src b P = true ->
  (forall t k, t < T -> k < num_src b -> at_ (source t) w k c = if k =? rank (b_src b) P then f t else c0) ->
  forall t i, t < T -> i < b_np b -> injected k0 b source w c t i = delta P f t i.
Proof.
  intros LP HP H t i Lt Li. unfold injected, delta. destruct (b_src b i) eqn:E.
  - rewrite H by (auto; apply rank_lt; auto). destruct (Nat.eqb_spec i P) as [->|N].
    + rewrite Nat.eqb_refl. reflexivity.
    + destruct (Nat.eqb_spec (rank (b_src b) i) (rank (b_src b) P)) as [E'|_]; auto.
      contradiction N. eapply rank_inj; eauto.
  - destruct (Nat.eqb_spec i P) as [->|N]; [congruence|reflexivity].
Qed.

Lemma forward_source e b s0 source s1 source1 outs : forward e b s0 source = Ok outs ->
  exists outs1, forward e b s1 source1 = Ok outs1.
Proof.
  unfold SimModel.forward. intros H. destruct (initialize k0 k1 kadd kmul ksub kopp solve e b) as [[m|]|]; cbn in *; try discriminate.
  destruct (buffer_depth e m); cbn in *; [|discriminate]. destruct (negb _); [discriminate|].
  destruct (_ && _); [discriminate|]. eauto.
Qed.

Theorem forward_reciprocal e (b b' : net K) s0 s0' source source' outs outs' w c P P' (f : nat -> cx) :
  same_circuit b b' w -> sym_C b -> reciprocal b w -> uniform k0 e b w ->
  flags_ok b -> flags_ok b' -> num_act b = 0 -> num_act b' = 0 -> w < e_num_wl e ->
  unmixed k0 e b w -> P < b_np b -> P' < b_np b ->
  b_src b P = true -> b_det b P' = true -> b_src b' P' = true -> b_det b' P = true ->
  (forall t k, t < e_num_t e -> k < num_src b -> at_ (source t) w k c = if k =? rank (b_src b) P then f t else c0) ->
  (forall t k, t < e_num_t e -> k < num_src b' -> at_ (source' t) w k c = if k =? rank (b_src b') P' then f t else c0) ->
  forward e b s0 source = Ok outs -> forward e b' s0' source' = Ok outs' ->
  forall t, t < e_num_t e ->
  at_ (nth t outs (zero_field k0)) w (rank (b_det b) P') c = at_ (nth t outs' (zero_field k0)) w (rank (b_det b') P) c.
Proof.
  intros SC SY RE UN FL FL' NA NA' Lw U LP LP' HP HP' HQ' HQ Hs Hs' HF HF' t Lt.
  assert (Sep : separate b) by (intros i Li; specialize (FL i Li); tauto).
  assert (Sep' : separate b') by (intros i Li; specialize (FL' i Li); tauto).
  assert (En : b_np b' = b_np b) by apply SC.
  assert (U' : unmixed k0 e b' w).
  { intros i j Li Lj N. rewrite En in Li, Lj. rewrite !(same_lag e SC) in N by auto.
    destruct SC as [_ H]. destruct (H i Li) as (_ & _ & H'). destruct (H' j Lj) as [_ ->]. apply U; auto. }
  set (pulse := fun t : nat => if t =? 0 then c1 k0 k1 else c0).
  destruct (@forward_source e b s0 source s0 (one_channel (rank (b_src b) P) pulse) outs HF) as [ho HH].
  destruct (@forward_source e b' s0' source' s0' (one_channel (rank (b_src b') P') pulse) outs' HF') as [ho' HH'].
  destruct (forward_sound KR SS c Sep NA Lw U HF) as (a & o & W & R).
  destruct (forward_sound KR SS c Sep' NA' Lw U' HF') as (a' & o' & W' & R').
  destruct (forward_sound KR SS c Sep NA Lw U HH) as (g & og & Wg & _).
  destruct (forward_sound KR SS c Sep' NA' Lw U' HH') as (g' & og' & Wg' & _).
  assert (ONE : forall k q t j, at_ (one_channel k q t) w j c = if j =? k then q t else c0).
  { intros k q u j. unfold one_channel, at_. cbn [fst snd]. destruct (j =? k); [symmetry; apply surjective_pairing|reflexivity]. }
  apply (waves_ext (injected_one LP HP Hs)) in W.
  apply (waves_ext (injected_one (f := pulse) (T := e_num_t e) LP HP (fun u j _ _ => ONE _ _ u j))) in Wg.
  rewrite <- En in LP'. apply (waves_ext (injected_one LP' HQ' Hs')) in W'.
  apply (waves_ext (injected_one (f := pulse) (T := e_num_t e) LP' HQ' (fun u j _ _ => ONE _ _ u j))) in Wg'.
  rewrite En in LP'.
  assert (PL : forall (y : nat -> cx) T, csum (fun s => cmul (pulse s) (y (T - s))) (seq 0 (S T)) = y T).
  { intros y T. rewrite (@lsum_ext _ c0 cadd _ _ (fun s => if s =? 0 then y (T - s) else c0)).
    - rewrite (lsum_one CR). cbn [Nat.ltb Nat.leb]. f_equal. lia.
    - intros s _. unfold pulse. destruct (s =? 0); ring. }
  assert (PR : forall (y : nat -> cx) T, csum (fun s => cmul (pulse (T - s)) (y s)) (seq 0 (S T)) = y T).
  { intros y T. rewrite <- (PL y T). rewrite <- (lsum_rev CR (fun s => cmul (pulse s) (y (T - s)))).
    apply lsum_ext. intros s Is. apply in_seq in Is. f_equal. f_equal. lia. }
  assert (IMP : forall T, T < e_num_t e -> g T P' = g' T P).
  { intros T LT. pose proof (lorentz KR SC SY RE UN (waves_le (T' := S T) LT Wg) (waves_le (T' := S T) LT Wg')) as L.
    rewrite conv_delta_r, conv_delta_l in L by auto.
    rewrite (PR (fun s => g s P')), (PL (fun s => g' s P)) in L. exact L. }
  (* f at P against a pulse at P' *)
  pose proof (lorentz KR SC SY RE UN (waves_le (T' := S t) Lt W) (waves_le (T' := S t) Lt Wg')) as L1.
  rewrite conv_delta_r, conv_delta_l in L1 by auto. rewrite (PR (fun s => a s P')) in L1.
  pose proof (lorentz KR SC SY RE UN (waves_le (T' := S t) Lt Wg) (waves_le (T' := S t) Lt W')) as L2.
  rewrite conv_delta_r, conv_delta_l in L2 by auto. rewrite (PL (fun s => a' s P)) in L2.
  destruct R as [_ R]. destruct R' as [_ R']. rewrite R, R' by (rewrite ?En; auto).
  rewrite L1, <- L2. rewrite <- (lsum_rev CR (fun s => cmul (f s) (g' (t - s) P))).
  apply lsum_ext. intros s Is. apply in_seq in Is. rewrite IMP by lia. f_equal. f_equal. lia.
Qed.
End Cons.

(** *** Passive circuits *)
Section Real.
Local Open Scope R_scope.
Notation net := (net R).
Notation c0 := (c0 0%R).
Notation norm2 := (norm2 Rplus Rmult).
Notation sum := (lsum 0%R Rplus).

Lemma norm2_pos z : 0 <= norm2 z.
Proof. unfold SimSpec.norm2. nra. Qed.

Lemma sum_le {A} (f g : A -> R) l : (forall x, In x l -> f x <= g x) -> sum f l <= sum g l.
Proof.
  induction l as [|x l IH]; intros H; [apply Rle_refl|]. rewrite !lsum_cons.
  apply Rplus_le_compat; [apply H; now left|apply IH; intros; apply H; now right].
Qed.
Lemma sum_pos {A} (f : A -> R) l : (forall x, In x l -> 0 <= f x) -> 0 <= sum f l.
Proof.
  induction l as [|x l IH]; intros H; [apply Rle_refl|]. rewrite lsum_cons.
  apply Rplus_le_le_0_compat; [apply H; now left|apply IH; intros; apply H; now right].
Qed.

Definition RR := RTheory.

Lemma net_passive_terms (term : string -> bool) (cs : list (string * net)) conns b w :
  @net_buf (nat -> R * R) Q (fun _ => c0) 0%Q cs conns = Ok b ->
  (forall n c, In (n, c) cs -> if term n then dark 0%R c w else passive c w) ->
  forall x, power_all 0 Rplus Rmult (b_np b) (scatter 0 Rplus Rmult Rminus b w x)
    <= power_on 0 Rplus Rmult (fun i => negb (term_ports term cs i)) (b_np b) x.
Proof.
  intros Hb HL x. destruct (net_buf_inv Hb) as (_ & _ & E & _). rewrite E. unfold power_all, power_on.
  rewrite (@lsum_ext _ 0%R Rplus _ _ (fun i => norm2 (mscatter 0 Rplus Rmult Rminus (fun i j => block_mat (@b_S (nat -> R * R) Q) (fun _ => c0) cs i j w) (total_ports cs) x i)))
    by (intros i _; f_equal; apply (scatter_net _ _ _ _ _ _ Hb)).
  clear Hb E b. revert x. induction cs as [|[n c] r IH]; intros x.
  - rewrite (scatter_blocks RR term). apply Rle_refl.
  - rewrite (scatter_blocks RR term). rewrite (power_parts RR). apply Rplus_le_compat.
    + specialize (HL n c (or_introl eq_refl)). unfold power_on. destruct (term n) eqn:T.
      * rewrite (dark_power RR x HL). apply sum_pos. intros i _. destruct (negb _); [apply norm2_pos|apply Rle_refl].
      * eapply Rle_trans; [apply HL|]. apply Req_le. unfold power_all. apply lsum_ext. intros i Ii. apply in_seq in Ii.
        unfold term_ports. cbn [owner]. destruct (Nat.ltb_spec i (b_np c)); [|lia]. rewrite T. reflexivity.
    + eapply Rle_trans; [apply IH; intros m d I; apply HL; right; exact I|]. apply Req_le.
      apply lsum_ext. intros i _. unfold term_ports. cbn [owner].
      destruct (Nat.ltb_spec (b_np c + i) (b_np c)); [lia|]. replace (b_np c + i - b_np c)%nat with i by lia. reflexivity.
Qed.

Lemma compile_passive w c b : every_leaf (fun c => passive c w) c ->
  @compile (nat -> R * R) Q (fun _ => c0) 0%Q c = Ok b -> passive b w.
Proof.
  apply (@compile_ind' _ _ _ _ (fun c => passive c w)). intros cs cn b' _ HN HU x.
  eapply Rle_trans; [apply (@net_passive_terms (fun _ => false) cs cn b' w HN)|apply Rle_refl].
  intros n d I. exact (HU n d I).
Qed.

Lemma lossless_passive b w : lossless 0 Rplus Rmult Rminus b w -> passive b w.
Proof. intros H x. rewrite H. apply Rle_refl. Qed.
Lemma dark_passive b w : dark 0%R b w -> passive b w.
Proof. intros H x. rewrite (dark_power RR x H). apply sum_pos. intros. apply norm2_pos. Qed.

Variable solve : nat -> nat -> mat R -> mat R -> option (mat R).
Variables (A : Type) (act : A -> nat -> field R -> A * field R).
Hypothesis SS : solver_sound 0 Rplus Rmult solve.

Theorem forward_passive (term : string -> bool) (mods : list (string * net)) conns (b : net) e s0 source outs w c :
  @build (nat -> R * R) Q (fun _ => c0) 0%Q mods conns = Ok b ->
  (forall n d, In (n, d) mods -> if term n then dark 0%R d w else passive d w /\ plain d) ->
  sym_C b -> one_partner b -> flags_ok b -> num_act b = 0%nat -> (w < e_num_wl e)%nat -> unmixed 0 e b w ->
  forward 0 1 Rplus Rmult Rminus Ropp solve act e b s0 source = Ok outs ->
  forall T, (T <= e_num_t e)%nat ->
  sent 0 Rplus Rmult (num_det b) T (fun t => nth t outs (zero_field 0)) w c <= sent 0 Rplus Rmult (num_src b) T source w c.
Proof.
  intros HB HM SY OP FL NA Lw U HF T LT. destruct (build_inv HB) as (cs & Hs & Hb).
  assert (Sep : separate b) by (intros i Li; specialize (FL i Li); tauto).
  assert (HC : forall n d, In (n, d) cs -> if term n then dark 0%R d w else passive d w /\ plain d).
  { intros n d I. apply HM. apply assoc_In_s. exact (sc_from Hs I). }
  assert (HP : forall i, (i < b_np b)%nat -> term_ports term cs i = false -> b_src b i = false /\ b_det b i = false /\ b_act b i = false).
  { apply (@term_plain R 0 term cs _ b Hb). intros n d I T1. specialize (HC n d I). rewrite T1 in HC. apply HC. }
  destruct (forward_sound RR SS c Sep NA Lw U HF) as (a & o & W & R).
  rewrite (detected_eq RR LT R), <- (sent_eq RR).
  assert (B := @balance _ _ _ _ _ _ _ RR b w e OP SY (term_ports term cs)).
  specialize (B (term_dark Hb (fun n d I T1 => ltac:(specialize (HC n d I); rewrite T1 in HC; exact HC))) T _ a o (waves_le LT W)).
  specialize (B ltac:(intros t i Li E; unfold injected; destruct (HP i Li E) as (-> & _); reflexivity)).
  match type of B with ?x + ?y + ?z = ?s + ?u => set (X := x) in *; set (Y := y) in *; set (Z := z) in *; set (SN := s) in *; set (SC := u) in * end.
  assert (SC <= Z).
  { apply sum_le. intros t _. apply (net_passive_terms Hb). intros n d I. specialize (HC n d I). destruct (term n); [exact HC|apply HC]. }
  assert (0 <= Y).
  { apply sum_pos. intros i _. destruct (negb _); [|apply Rle_refl]. apply sum_pos. intros t _. destruct (_ <=? _)%nat; [apply norm2_pos|apply Rle_refl]. }
  assert (energy_on 0 Rplus Rmult (b_det b) (b_np b) T a <= X).
  { apply sum_le. intros t _. apply sum_le. intros i Ii. apply in_seq in Ii. destruct (b_det b i) eqn:E.
    - destruct (term_ports term cs i) eqn:TP; [apply Rle_refl|]. destruct (HP i ltac:(lia) TP) as (_ & H' & _). congruence.
    - destruct (term_ports term cs i); [apply norm2_pos|apply Rle_refl]. }
  lra.
Qed.
End Real.

Lemma every_leaf_and1 X D (P Q : buf X D -> Prop) c : every_leaf (fun d => P d /\ Q d) c -> every_leaf P c.
Proof. induction 1; constructor; tauto || auto. Qed.
Lemma every_leaf_and2 X D (P Q : buf X D -> Prop) c : every_leaf (fun d => P d /\ Q d) c -> every_leaf Q c.
Proof. induction 1; constructor; tauto || auto. Qed.

Lemma power_nonneg solve (A : Type) (act : A -> nat -> field R -> A * field R) e (b : net R) s0 source ps :
  forward_power 0%R 1%R Rplus Rmult Rminus Ropp solve act e b s0 source = Ok ps ->
  forall t w k c, (0 <= nth t ps (fun _ _ _ => 0) w k c)%R.
Proof.
  unfold forward_power. intros H t w k c.
  destruct (forward 0%R 1%R Rplus Rmult Rminus Ropp solve act e b s0 source) as [outs|]; [|discriminate].
  cbn in H. injection H as <-. revert t. induction outs as [|x l IH]; intros [|t]; cbn; try apply Rle_refl; auto.
  unfold power. nra.
Qed.
