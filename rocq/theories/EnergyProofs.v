(** Energy balance and reciprocity of the wave equations. *)
From Coq Require Import QArith Ring Permutation Reals Lra.
From Verif Require Import Base PyStr NetModel NetSpec NetProofs WireProofs NetBuild SimModel SimAlg SimSpec
  SimNodes SimProofs SimMore CircuitSpec CircuitProofs.
Set Implicit Arguments.
Unset Strict Implicit.
Local Open Scope list_scope.
Local Open Scope nat_scope.

Section Sums.
Variables (K : Type) (k0 k1 : K) (kadd kmul ksub : K -> K -> K) (kopp : K -> K).
Hypothesis KR : ring_theory k0 k1 kadd kmul ksub kopp (@eq K).
Add Ring Kring : KR.
Notation sum := (lsum k0 kadd).

Lemma lsum_pick (p : nat -> bool) (f : nat -> K) m j : j < m -> p j = true ->
  (forall k, k < m -> p k = true -> k = j) ->
  sum (fun k => if p k then f k else k0) (seq 0 m) = f j.
Proof.
  intros L P U. rewrite (@lsum_ext _ k0 kadd _ _ (fun k => if k =? j then f k else k0)).
  - rewrite (lsum_one KR). destruct (Nat.ltb_spec j m); [reflexivity|lia].
  - intros k Ik. apply in_seq in Ik. destruct (Nat.eqb_spec k j) as [->|N]; [rewrite P; reflexivity|].
    destruct (p k) eqn:E; auto. contradiction N. apply U; auto. lia.
Qed.

(** A delayed signal: what it has not yet delivered is still under way. *)
Lemma lsum_delay (g : nat -> K) d T :
  sum g (seq 0 T) = kadd (sum (fun t => if t <? d then k0 else g (t - d)) (seq 0 T))
                         (sum (fun t => if T <=? t + d then g t else k0) (seq 0 T)).
Proof.
  destruct (le_lt_dec d T) as [L|L].
  - assert (exists m, T = d + m) as [m ->] by (exists (T - d); lia).
    replace (sum g (seq 0 (d + m))) with (sum g (seq 0 (m + d))) by (f_equal; f_equal; lia).
    replace (seq 0 (d + m)) with (seq 0 (m + d)) at 2 by (f_equal; lia).
    rewrite !seq_add, !(lsum_app KR), !lsum_map.
    rewrite (@lsum_0 _ k0 k1 kadd kmul ksub kopp KR _ (fun t => if t <? d then k0 else g (t - d)) (seq 0 d)).
    2:{ intros t It. apply in_seq in It. destruct (Nat.ltb_spec t d); [reflexivity|lia]. }
    rewrite (@lsum_ext _ k0 kadd _ (fun x => if d + x <? d then k0 else g (d + x - d)) g).
    2:{ intros t _. destruct (Nat.ltb_spec (d + t) d); [lia|]. f_equal. lia. }
    rewrite (@lsum_0 _ k0 k1 kadd kmul ksub kopp KR _ (fun t => if d + m <=? t + d then g t else k0) (seq 0 m)).
    2:{ intros t It. apply in_seq in It. destruct (Nat.leb_spec (d + m) (t + d)); [lia|reflexivity]. }
    rewrite (@lsum_ext _ k0 kadd _ (fun x => if d + m <=? m + x + d then g (m + x) else k0) (fun x => g (m + x))).
    2:{ intros t _. destruct (Nat.leb_spec (d + m) (m + t + d)); [reflexivity|lia]. }
    ring.
  - rewrite (@lsum_0 _ k0 k1 kadd kmul ksub kopp KR _ (fun t => if t <? d then k0 else g (t - d))).
    2:{ intros t It. apply in_seq in It. destruct (Nat.ltb_spec t d); [reflexivity|lia]. }
    rewrite (@lsum_ext _ k0 kadd _ (fun t => if T <=? t + d then g t else k0) g); [ring|].
    intros t It. apply in_seq in It. destruct (Nat.leb_spec T (t + d)); [reflexivity|lia].
Qed.

(** Sums over the ports with a flag, by channel number. *)
Lemma lsum_rank (f : nat -> bool) (g : nat -> K) n :
  sum (fun p => if f p then g (rank f p) else k0) (seq 0 n) = sum g (seq 0 (length (filter f (seq 0 n)))).
Proof.
  induction n as [|n IH]; [reflexivity|].
  rewrite seq_S, filter_app, app_length, (lsum_app KR), IH. cbn [Nat.add filter].
  destruct (f n) eqn:E.
  - cbn [length]. rewrite seq_add, (lsum_app KR), lsum_map. cbn [seq].
    rewrite !lsum_cons, !lsum_nil, E. unfold rank. rewrite Nat.add_0_r. reflexivity.
  - cbn [length]. rewrite Nat.add_0_r, !lsum_cons, !lsum_nil, E. ring.
Qed.

(** Reversing time. *)
Lemma lsum_rev (g : nat -> K) T : sum (fun s => g (T - s)) (seq 0 (S T)) = sum g (seq 0 (S T)).
Proof.
  rewrite <- (@lsum_map _ k0 kadd _ _ (fun s => T - s) g).
  apply (lsum_perm KR). apply Permutation_sym, NoDup_Permutation_bis.
  - apply seq_NoDup.
  - rewrite map_length. auto.
  - intros x Hx. apply in_seq in Hx. apply in_map_iff. exists (T - x). split; [lia|apply in_seq; lia].
Qed.
End Sums.

Section Energy.
Variables (K : Type) (k0 k1 : K) (kadd kmul ksub : K -> K -> K) (kopp : K -> K).
Hypothesis KR : ring_theory k0 k1 kadd kmul ksub kopp (@eq K).
Add Ring Kring2 : KR.
Notation cx := (prod K K).
Notation net := (net K).
Notation c0 := (c0 k0).
Notation cadd := (cadd kadd).
Notation cmul := (cmul kadd kmul ksub).
Notation csum := (lsum c0 cadd).
Notation sum := (lsum k0 kadd).
Notation norm2 := (norm2 kadd kmul).
Notation power_all := (power_all k0 kadd kmul).
Notation power_on := (power_on k0 kadd kmul).
Notation scatter := (scatter k0 kadd kmul ksub).
Notation waves := (waves k0 kadd kmul ksub).
Let CR := CR KR.
Add Ring Cring2 : CR.

Lemma norm2_0 : norm2 c0 = k0.
Proof. unfold SimSpec.norm2. cbn. ring. Qed.

Lemma waves_le e (b : net) w T T' src a o : T' <= T -> waves e b w T src a o -> waves e b w T' src a o.
Proof. intros L H t i Lt Li. apply H; lia. Qed.

Section Net.
Variables (b : net) (w : nat) (e : env).
Hypothesis OP : one_partner b.
Hypothesis SY : sym_C b.

(** Wires only move the light. *)
Lemma wire_power T src a o t : waves e b w T src a o -> t < T ->
  power_all (b_np b) (a t) = power_all (b_np b) (o t).
Proof.
  intros HW Lt. unfold CircuitSpec.power_all.
  rewrite (@lsum_ext _ k0 kadd _ _ (fun i => sum (fun j => if b_C b i j then norm2 (o t j) else k0) (seq 0 (b_np b)))).
  - rewrite (lsum_swap KR). apply lsum_ext. intros j Ij. apply in_seq in Ij.
    destruct (@OP j ltac:(lia)) as (i & Li & C & U).
    rewrite (@lsum_pick _ _ _ _ _ _ _ KR (fun i => b_C b i j) (fun _ => norm2 (o t j)) _ i Li); auto.
    + rewrite SY by lia. exact C.
    + intros k Lk Ck. apply U; auto. rewrite SY by lia. exact Ck.
  - intros i Ii. apply in_seq in Ii. destruct (HW t i Lt ltac:(lia)) as [-> _].
    destruct (@OP i ltac:(lia)) as (j & Lj & C & U).
    rewrite (lsum_pick CR (fun j => o t j) Lj C) by auto.
    rewrite (lsum_pick KR (fun j => norm2 (o t j)) Lj C) by auto. reflexivity.
Qed.

Variable ab : nat -> bool.
Hypothesis AB : forall i j, i < b_np b -> j < b_np b -> ab i = true -> b_S b i j w = c0.

(** Sources sit at ports that scatter nothing. *)
Lemma out_power T src a o t : waves e b w T src a o -> t < T ->
  (forall i, i < b_np b -> ab i = false -> src t i = c0) ->
  power_all (b_np b) (o t) =
  kadd (power_all (b_np b) (src t)) (power_all (b_np b) (scatter b w (fun j => past k0 a (lag e b j) t j))).
Proof.
  intros HW Lt HS. unfold CircuitSpec.power_all. rewrite <- (lsum_add KR). apply lsum_ext. intros i Ii. apply in_seq in Ii.
  destruct (HW t i Lt ltac:(lia)) as [_ ->]. fold (scatter b w (fun j => past k0 a (lag e b j) t j) i).
  destruct (ab i) eqn:E.
  - assert (Z : scatter b w (fun j => past k0 a (lag e b j) t j) i = c0).
    { apply (lsum_0 CR). intros j Ij. apply in_seq in Ij. rewrite AB by (auto; lia). ring. }
    rewrite Z, norm2_0. replace (cadd (src t i) c0) with (src t i) by ring. ring.
  - rewrite HS by (auto; lia). rewrite norm2_0. match goal with |- norm2 (cadd c0 ?s) = _ => replace (cadd c0 s) with s by ring end. ring.
Qed.

Lemma power_split f x : power_all (b_np b) x = kadd (power_on f (b_np b) x) (power_on (fun i => negb (f i)) (b_np b) x).
Proof.
  unfold CircuitSpec.power_all, CircuitSpec.power_on. rewrite <- (lsum_add KR). apply lsum_ext. intros i _.
  destruct (f i); cbn [negb]; ring.
Qed.

(** What entered the ports [f] either came out or is stored. *)
Lemma delay_power f T a :
  sum (fun t => power_on f (b_np b) (a t)) (seq 0 T) =
  kadd (sum (fun t => power_on f (b_np b) (fun j => past k0 a (lag e b j) t j)) (seq 0 T))
       (stored k0 kadd kmul e b f T a).
Proof.
  unfold CircuitSpec.power_on, stored. rewrite !(lsum_swap KR _ (seq 0 T)), <- (lsum_add KR).
  apply lsum_ext. intros i _. destruct (f i).
  - rewrite (lsum_delay KR _ (lag e b i)). f_equal. apply lsum_ext. intros t _. unfold past.
    destruct (t <? lag e b i); [symmetry; apply norm2_0|reflexivity].
  - rewrite !(lsum_0 KR) by auto. ring.
Qed.

Lemma balance T src a o : waves e b w T src a o ->
  (forall t i, i < b_np b -> ab i = false -> src t i = c0) ->
  kadd (kadd (energy_on k0 kadd kmul ab (b_np b) T a) (stored k0 kadd kmul e b (fun i => negb (ab i)) T a))
       (sum (fun t => power_on (fun i => negb (ab i)) (b_np b) (fun j => past k0 a (lag e b j) t j)) (seq 0 T)) =
  kadd (sum (fun t => power_all (b_np b) (src t)) (seq 0 T))
       (sum (fun t => power_all (b_np b) (scatter b w (fun j => past k0 a (lag e b j) t j))) (seq 0 T)).
Proof.
  intros HW HS. rewrite <- (lsum_add KR).
  rewrite (@lsum_ext _ k0 kadd _ (fun t => kadd (power_all (b_np b) (src t)) _) (fun t => power_all (b_np b) (a t))).
  2:{ intros t It. apply in_seq in It. rewrite <- (@out_power T src a o t) by (auto; lia). symmetry. eapply wire_power; eauto. lia. }
  rewrite (@lsum_ext _ k0 kadd _ (fun t => power_all (b_np b) (a t)) (fun t => kadd (power_on ab (b_np b) (a t)) (power_on (fun i => negb (ab i)) (b_np b) (a t))))
    by (intros t _; apply power_split).
  rewrite (lsum_add KR), (delay_power (fun i => negb (ab i)) T a). unfold energy_on. ring.
Qed.

(** C25: exact conservation, at every time. *)
Theorem conservation T src a o : waves e b w T src a o ->
  (forall t i, i < b_np b -> ab i = false -> src t i = c0) ->
  (forall x, power_all (b_np b) (scatter b w x) = power_on (fun i => negb (ab i)) (b_np b) x) ->
  kadd (energy_on k0 kadd kmul ab (b_np b) T a) (stored k0 kadd kmul e b (fun i => negb (ab i)) T a)
  = sum (fun t => power_all (b_np b) (src t)) (seq 0 T).
Proof.
  intros HW HS HL. pose proof (balance HW HS) as B.
  rewrite (@lsum_ext _ k0 kadd _ (fun t => power_all (b_np b) (scatter b w _)) (fun t => power_on (fun i => negb (ab i)) (b_np b) (fun j => past k0 a (lag e b j) t j))) in B
    by (intros t _; apply HL).
  match type of B with kadd ?l ?z = kadd ?r ?z => transitivity (ksub (kadd l z) z); [ring|rewrite B; ring] end.
Qed.
End Net.

Lemma sent_eq (b : net) source w c T :
  sum (fun t => power_all (b_np b) (injected k0 b source w c t)) (seq 0 T) = sent k0 kadd kmul (num_src b) T source w c.
Proof.
  apply lsum_ext. intros t _. unfold CircuitSpec.power_all, injected, num_src.
  rewrite <- (lsum_rank KR (b_src b)). apply lsum_ext. intros i _. destruct (b_src b i); [reflexivity|apply norm2_0].
Qed.

Lemma detected_eq (b : net) outs w c T T' a : T' <= T -> reads k0 b outs w c T a ->
  sent k0 kadd kmul (num_det b) T' (fun t => nth t outs (zero_field k0)) w c = energy_on k0 kadd kmul (b_det b) (b_np b) T' a.
Proof.
  intros L [_ H]. apply lsum_ext. intros t It. apply in_seq in It. unfold CircuitSpec.power_on, num_det.
  rewrite <- (lsum_rank KR (b_det b)). apply lsum_ext. intros i Ii. apply in_seq in Ii. destruct (b_det b i) eqn:E; auto.
  rewrite H by (auto; lia). reflexivity.
Qed.

(** In the frequency domain nothing is stored. *)
Lemma stored_freq e (b : net) f a : e_dt e = None ->
  (forall i, i < b_np b -> f i = true -> b_src b i || b_det b i || b_act b i = false) ->
  forall T, stored k0 kadd kmul e b f T a = k0.
Proof.
  intros Ed H T. unfold stored. apply (lsum_0 KR). intros i Ii. apply in_seq in Ii. destruct (f i) eqn:E; auto.
  apply (lsum_0 KR). intros t It. apply in_seq in It. unfold lag. rewrite H by (auto; lia). unfold steps. rewrite Ed.
  destruct (Nat.leb_spec T (t + 0)); [lia|reflexivity].
Qed.

(** *** Reciprocity *)
Section Recip.
Variables (b b' : net) (w : nat) (e : env).
Hypothesis SC : same_circuit b b' w.
Hypothesis SY : sym_C b.
Hypothesis RE : reciprocal b w.
Hypothesis UN : uniform k0 e b w.

Lemma same_lag i : i < b_np b -> lag e b' i = lag e b i.
Proof. intros L. destruct SC as [_ H]. destruct (H i L) as (E1 & E2 & _). unfold lag. rewrite E1, E2. reflexivity. Qed.

(** Sum over all ports of the product of two fields. *)
Definition pair (x y : nat -> cx) : cx := csum (fun i => cmul (x i) (y i)) (seq 0 (b_np b)).

Lemma pair_sym x y : pair x y = pair y x.
Proof. apply lsum_ext. intros; ring. Qed.

(** Time convolution. *)
Definition conv (x y : nat -> nat -> cx) (T : nat) : cx := csum (fun s => pair (x s) (y (T - s))) (seq 0 (S T)).

Lemma conv_sym x y T : conv x y T = conv y x T.
Proof.
  unfold conv. rewrite <- (lsum_rev CR (fun s => pair (y s) (x (T - s)))). apply lsum_ext. intros s Is. apply in_seq in Is.
  rewrite pair_sym. f_equal. f_equal. lia.
Qed.

Lemma conv_wire T src src' a o a' o' : waves e b w (S T) src a o -> waves e b' w (S T) src' a' o' ->
  conv a o' T = conv o a' T.
Proof.
  intros H H'. unfold conv. apply lsum_ext. intros s Is. apply in_seq in Is. unfold pair.
  rewrite (@lsum_ext _ c0 cadd _ (fun i => cmul (a s i) (o' (T - s) i))
    (fun i => csum (fun j => if b_C b i j then cmul (o s j) (o' (T - s) i) else c0) (seq 0 (b_np b)))).
  2:{ intros i Ii. apply in_seq in Ii. destruct (H s i ltac:(lia) ltac:(lia)) as [-> _].
      rewrite <- (lsum_mul_r CR). apply lsum_ext. intros j _. destruct (b_C b i j); ring. }
  rewrite (lsum_swap CR). apply lsum_ext. intros j Ij. apply in_seq in Ij.
  destruct SC as [En Hsc].
  destruct (H' (T - s) j ltac:(lia) ltac:(lia)) as [-> _]. rewrite <- (lsum_mul CR), En. apply lsum_ext.
  intros i Ii. apply in_seq in Ii. destruct (Hsc j ltac:(lia)) as (_ & _ & Hij). destruct (Hij i ltac:(lia)) as [-> _].
  rewrite (SY (i:=j) (j:=i)) by lia. destruct (b_C b i j); ring.
Qed.

(** Swapping the two delays. *)
Lemma conv_delay (a a' : nat -> nat -> cx) d T i j :
  csum (fun s => cmul (a s i) (past k0 a' d (T - s) j)) (seq 0 (S T)) =
  csum (fun s => cmul (past k0 a d s i) (a' (T - s) j)) (seq 0 (S T)).
Proof.
  pose proof (lsum_delay CR (fun s => if s + d <=? T then cmul (a s i) (a' (T - s - d) j) else c0) d (S T)) as D.
  rewrite (@lsum_0 _ _ _ _ _ _ _ CR _ (fun t => if S T <=? t + d then _ else c0)) in D.
  2:{ intros s Is. apply in_seq in Is. destruct (Nat.leb_spec (S T) (s + d)); auto.
      destruct (Nat.leb_spec (s + d) T); [lia|reflexivity]. }
  etransitivity; [etransitivity; [|exact D]|].
  - apply lsum_ext. intros s Is. apply in_seq in Is. unfold past.
    destruct (Nat.ltb_spec (T - s) d), (Nat.leb_spec (s + d) T); try lia; try ring; try reflexivity.
  - match goal with |- cadd ?s c0 = _ => transitivity s; [ring|] end.
    apply lsum_ext. intros s Is. apply in_seq in Is. unfold past.
    destruct (Nat.ltb_spec s d); [ring|]. destruct (Nat.leb_spec (s - d + d) T); [|lia]. f_equal. f_equal. lia.
Qed.

Lemma conv_scatter a a' T :
  csum (fun s => pair (a s) (fun i => csum (fun j => cmul (b_S b' i j w) (past k0 a' (lag e b' j) (T - s) j)) (seq 0 (b_np b')))) (seq 0 (S T)) =
  csum (fun s => pair (fun i => csum (fun j => cmul (b_S b i j w) (past k0 a (lag e b j) s j)) (seq 0 (b_np b))) (a' (T - s))) (seq 0 (S T)).
Proof.
  destruct SC as [En Hsc]. unfold pair.
  transitivity (csum (fun i => csum (fun j => cmul (b_S b i j w)
      (csum (fun s => cmul (a s i) (past k0 a' (lag e b j) (T - s) j)) (seq 0 (S T)))) (seq 0 (b_np b))) (seq 0 (b_np b))).
  - rewrite (lsum_swap CR). apply lsum_ext. intros i Ii. apply in_seq in Ii.
    rewrite (@lsum_ext _ c0 cadd _ _ (fun s => csum (fun j => cmul (b_S b i j w) (cmul (a s i) (past k0 a' (lag e b j) (T - s) j))) (seq 0 (b_np b)))).
    + rewrite (lsum_swap CR). apply lsum_ext. intros j _. rewrite <- (lsum_mul CR). reflexivity.
    + intros s _. rewrite <- (lsum_mul CR), En. apply lsum_ext. intros j Ij. apply in_seq in Ij.
      rewrite same_lag by lia. destruct (Hsc i ltac:(lia)) as (_ & _ & Hij). destruct (Hij j ltac:(lia)) as [_ ->]. ring.
  - transitivity (csum (fun i => csum (fun j => cmul (b_S b i j w)
      (csum (fun s => cmul (past k0 a (lag e b i) s i) (a' (T - s) j)) (seq 0 (S T)))) (seq 0 (b_np b))) (seq 0 (b_np b))).
    + apply lsum_ext. intros i Ii. apply in_seq in Ii. apply lsum_ext. intros j Ij. apply in_seq in Ij.
      destruct (UN (i:=i) (j:=j)) as [->|E]; [lia|lia|ring|]. rewrite E, conv_delay. reflexivity.
    + rewrite (lsum_swap CR), (lsum_swap CR _ (seq 0 (S T))). apply lsum_ext. intros j Ij. apply in_seq in Ij.
      rewrite (@lsum_ext _ c0 cadd _ (fun s => cmul (csum (fun j0 => cmul (b_S b j j0 w) (past k0 a (lag e b j0) s j0)) (seq 0 (b_np b))) (a' (T - s) j))
        (fun s => csum (fun i => cmul (b_S b i j w) (cmul (past k0 a (lag e b i) s i) (a' (T - s) j))) (seq 0 (b_np b)))).
      * rewrite (lsum_swap CR _ (seq 0 (S T))). apply lsum_ext. intros i _. rewrite <- (lsum_mul CR). reflexivity.
      * intros s _. rewrite <- (lsum_mul_r CR). apply lsum_ext. intros i Ii. apply in_seq in Ii.
        rewrite (RE (i:=j) (j:=i)) by lia. ring.
Qed.

(** Reaction of one field on the sources of the other. *)
Theorem lorentz T src src' a o a' o' : waves e b w (S T) src a o -> waves e b' w (S T) src' a' o' ->
  conv a src' T = conv src a' T.
Proof.
  intros H H'. pose proof (conv_wire H H') as HC.
  assert (E1 : conv a o' T = cadd (conv a src' T)
    (csum (fun s => pair (a s) (fun i => csum (fun j => cmul (b_S b' i j w) (past k0 a' (lag e b' j) (T - s) j)) (seq 0 (b_np b')))) (seq 0 (S T)))).
  { unfold conv. rewrite <- (lsum_add CR). apply lsum_ext. intros s Is. apply in_seq in Is.
    unfold pair. rewrite <- (lsum_add CR). apply lsum_ext. intros i Ii. apply in_seq in Ii.
    destruct (H' (T - s) i ltac:(lia)) as [_ ->]; [destruct SC as [-> _]; lia|]. ring. }
  assert (E2 : conv o a' T = cadd (conv src a' T)
    (csum (fun s => pair (fun i => csum (fun j => cmul (b_S b i j w) (past k0 a (lag e b j) s j)) (seq 0 (b_np b))) (a' (T - s))) (seq 0 (S T)))).
  { unfold conv. rewrite <- (lsum_add CR). apply lsum_ext. intros s Is. apply in_seq in Is.
    unfold pair. rewrite <- (lsum_add CR). apply lsum_ext. intros i Ii. apply in_seq in Ii.
    destruct (H s i ltac:(lia) ltac:(lia)) as [_ ->]. ring. }
  rewrite conv_scatter in E1. rewrite E1, E2 in HC.
  match type of HC with cadd ?l ?z = cadd ?r ?z => transitivity (SimAlg.csub ksub (cadd l z) z); [ring|rewrite HC; ring] end.
Qed.
End Recip.
End Energy.
