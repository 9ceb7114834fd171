(** Wave equations and scattering matrices of composed circuits, component by component. *)
From Coq Require Import QArith Ring Permutation.
From Verif Require Import Base PyStr NetModel NetSpec NetProofs WireProofs NetBuild SimModel SimAlg SimSpec CircuitSpec.
Set Implicit Arguments.
Unset Strict Implicit.
Local Open Scope string_scope.
Local Open Scope list_scope.
Local Open Scope nat_scope.

Section Blocks.
Variables (X D : Type) (x0 : X) (d0 : D).
Notation buf := (buf X D).
Notation comps := (list (string * buf)).

Lemma block_mat_same {A} (sel : buf -> nat -> nat -> A) d pre n (c : buf) post q q' :
  q < b_np c -> q' < b_np c ->
  block_mat sel d (pre ++ (n, c) :: post) (ports_before pre + q) (ports_before pre + q') = sel c q q'.
Proof.
  intros L L'. induction pre as [|[m c'] pre IH].
  - cbn [app block_mat ports_before map list_sum fold_right Nat.add].
    destruct (Nat.ltb_spec q (b_np c)); [|lia]. destruct (Nat.ltb_spec q' (b_np c)); [|lia]. reflexivity.
  - rewrite ports_before_cons. cbn [app block_mat].
    destruct (Nat.ltb_spec (b_np c' + ports_before pre + q) (b_np c')); [lia|].
    destruct (Nat.ltb_spec (b_np c' + ports_before pre + q') (b_np c')); [lia|]. cbn [andb orb].
    replace (b_np c' + ports_before pre + q - b_np c') with (ports_before pre + q) by lia.
    replace (b_np c' + ports_before pre + q' - b_np c') with (ports_before pre + q') by lia. exact IH.
Qed.

Lemma block_mat_out {A} (sel : buf -> nat -> nat -> A) d pre n (c : buf) post q j :
  q < b_np c -> (j < ports_before pre \/ ports_before pre + b_np c <= j) ->
  block_mat sel d (pre ++ (n, c) :: post) (ports_before pre + q) j = d /\
  block_mat sel d (pre ++ (n, c) :: post) j (ports_before pre + q) = d.
Proof.
  intros L. revert j. induction pre as [|[m c'] pre IH]; intros j.
  - cbn [app block_mat ports_before map list_sum fold_right Nat.add]. intros [H|H]; [lia|].
    destruct (Nat.ltb_spec q (b_np c)); [|lia]. destruct (Nat.ltb_spec j (b_np c)); [lia|]. auto.
  - rewrite ports_before_cons. cbn [app block_mat]. intros H.
    destruct (Nat.ltb_spec (b_np c' + ports_before pre + q) (b_np c')); [lia|].
    destruct (Nat.ltb_spec j (b_np c')); cbn [andb orb]; [auto|].
    replace (b_np c' + ports_before pre + q - b_np c') with (ports_before pre + q) by lia.
    apply IH. lia.
Qed.

Lemma owner_located (cs : comps) p n c q : located cs p n c q -> owner (@b_np X D) cs p = n.
Proof.
  intros (pre & post & -> & -> & Hq). induction pre as [|[m c'] pre IH].
  - change (ports_before []) with 0. cbn [app owner Nat.add].
    destruct (Nat.ltb_spec q (b_np c)); [reflexivity|lia].
  - cbn [app owner]. rewrite ports_before_cons.
    destruct (Nat.ltb_spec (b_np c' + ports_before pre + q) (b_np c')) as [H|H]; [lia|].
    replace (b_np c' + ports_before pre + q - b_np c') with (ports_before pre + q) by lia. exact IH.
Qed.

(** Two ports of a network: in the same part, or unrelated. *)
Lemma block_cases {A} (sel : buf -> nat -> nat -> A) d (cs : comps) i j : i < total_ports cs -> j < total_ports cs ->
  (exists n c q q', located cs i n c q /\ located cs j n c q' /\ q < b_np c /\ q' < b_np c /\
     block_mat sel d cs i j = sel c q q' /\ block_mat sel d cs j i = sel c q' q)
  \/ block_mat sel d cs i j = d /\ block_mat sel d cs j i = d.
Proof.
  intros Li Lj. destruct (located_exists Li) as (n & c & q & pre & post & -> & -> & Hq).
  destruct (le_lt_dec (ports_before pre) j) as [H1|H1]; [destruct (le_lt_dec (ports_before pre + b_np c) j) as [H2|H2]|].
  - right. apply block_mat_out; auto.
  - left. assert (exists q', j = ports_before pre + q') as [q' ->] by (exists (j - ports_before pre); lia).
    exists n, c, q, q'. split; [exists pre, post; auto|]. split; [exists pre, post; split; [reflexivity|]; lia|].
    split; [auto|]. split; [lia|]. split; apply block_mat_same; auto; lia.
  - right. apply block_mat_out; auto.
Qed.

(** A property that passes from the parts to a network passes from the leaves to a circuit. *)
Lemma compile_ind' (P : buf -> Prop) :
  (forall cs conns b, NoDup (map fst cs) -> net_buf x0 d0 cs conns = Ok b -> (forall n c, In (n, c) cs -> P c) -> P b) ->
  forall c b, every_leaf P c -> compile x0 d0 c = Ok b -> P b.
Proof.
  intros HP. induction c as [b0|cs conns IH] using comp_ind'; intros b He Hc.
  - cbn in Hc. apply check_buf_Ok in Hc. subst. inversion He; assumption.
  - destruct (compile_net Hc) as (mods & Hb & Hm). destruct (build_inv Hb) as (cs' & Hs & Hn).
    apply (HP _ _ _ (sc_once Hs) Hn). intros n d Hin. apply (sc_from Hs) in Hin. apply assoc_In_s in Hin.
    destruct (Forall2_In_r Hm Hin) as ([n' c'] & Hc' & E & Hd). inversion He; subst. eapply IH; eauto.
Qed.

Lemma build_ind (P : buf -> Prop) :
  (forall cs conns b, NoDup (map fst cs) -> net_buf x0 d0 cs conns = Ok b -> (forall n c, In (n, c) cs -> P c) -> P b) ->
  forall mods conns b, (forall n c, In (n, c) mods -> P c) -> build x0 d0 mods conns = Ok b -> P b.
Proof.
  intros HP mods conns b Hm Hb. destruct (build_inv Hb) as (cs' & Hs & Hn).
  apply (HP _ _ _ (sc_once Hs) Hn). intros n d Hin. apply (sc_from Hs) in Hin. apply assoc_In_s in Hin. eauto.
Qed.
End Blocks.

Section Split.
Variables (K : Type) (k0 : K).
Notation cx := (prod K K).
Notation net := (net K).
Notation c0 := (c0 k0).
Notation comps := (list (string * net)).
Notation net_buf := (@net_buf (nat -> cx) Q (fun _ => c0) 0%Q).
Notation compile := (@compile (nat -> cx) Q (fun _ => c0) 0%Q).
Notation build := (@build (nat -> cx) Q (fun _ => c0) 0%Q).

Section Net.
Variables (cs : comps) (conns : list string) (b : net).
Hypothesis Hb : net_buf cs conns = Ok b.

Lemma lag_located e p n c q : located cs p n c q -> lag e b p = lag e c q.
Proof.
  intros H. destruct (net_buf_inv Hb) as (_ & _ & _ & Es & Ed & Ea & _ & El).
  unfold lag. rewrite Es, Ed, Ea, El. rewrite !(block_vec_located _ _ H). reflexivity.
Qed.

Lemma S_located p n c q p' q' : located cs p n c q -> located cs p' n c q' -> forall w, NoDup (map fst cs) ->
  b_S b p p' w = b_S c q q' w.
Proof.
  intros (pre & post & E & -> & Lq) (pre' & post' & E' & -> & Lq') w ND.
  destruct (net_buf_inv Hb) as (_ & _ & _ & _ & _ & _ & -> & _).
  rewrite E in E'.
  assert (HP : ports_before pre' = ports_before pre).
  { assert (NN : NoDup (map fst (pre ++ (n, c) :: post))) by (rewrite <- E; exact ND).
    destruct (decomp_unique NN eq_refl E') as (-> & _). reflexivity. }
  rewrite E, HP, block_mat_same; auto.
Qed.

(** The rows and columns of one part. *)
Lemma S_block pre n c post q j w : cs = pre ++ (n, c) :: post -> q < b_np c ->
  (b_S b (ports_before pre + q) j w =
   if (ports_before pre <=? j) && (j <? ports_before pre + b_np c) then b_S c q (j - ports_before pre) w else c0) /\
  (b_S b j (ports_before pre + q) w =
   if (ports_before pre <=? j) && (j <? ports_before pre + b_np c) then b_S c (j - ports_before pre) q w else c0).
Proof.
  intros E L. destruct (net_buf_inv Hb) as (_ & _ & _ & _ & _ & _ & -> & _). rewrite E.
  destruct (Nat.leb_spec (ports_before pre) j) as [H1|H1]; [destruct (Nat.ltb_spec j (ports_before pre + b_np c)) as [H2|H2]|]; cbn [andb].
  - assert (exists q', j = ports_before pre + q') as [q' ->] by (exists (j - ports_before pre); lia).
    replace (ports_before pre + q' - ports_before pre) with q' by lia.
    rewrite !block_mat_same by lia. auto.
  - pose proof (@block_mat_out _ _ _ (@b_S (nat -> cx) Q) (fun _ => c0) pre n c post q j L ltac:(lia)) as [E1 E2].
    split; [exact (f_equal (fun g => g w) E1)|exact (f_equal (fun g => g w) E2)].
  - pose proof (@block_mat_out _ _ _ (@b_S (nat -> cx) Q) (fun _ => c0) pre n c post q j L ltac:(lia)) as [E1 E2].
    split; [exact (f_equal (fun g => g w) E1)|exact (f_equal (fun g => g w) E2)].
Qed.

Lemma S_cases w i j : i < b_np b -> j < b_np b ->
  (exists n c q q', located cs i n c q /\ located cs j n c q' /\ q < b_np c /\ q' < b_np c /\ In (n, c) cs /\
     b_S b i j w = b_S c q q' w /\ b_S b j i w = b_S c q' q w)
  \/ b_S b i j w = c0 /\ b_S b j i w = c0.
Proof.
  destruct (net_buf_inv Hb) as (_ & _ & -> & _ & _ & _ & -> & _). intros Li Lj.
  destruct (block_cases (@b_S (nat -> cx) Q) (fun _ => c0) Li Lj) as [(n & c & q & q' & H1 & H2 & L1 & L2 & -> & ->)|[-> ->]].
  - left. exists n, c, q, q'. intuition. destruct H1 as (pre & post & -> & _). apply in_elt.
  - right. auto.
Qed.
End Net.

(** C29 *)
Lemma net_unmixed e w cs conns b : net_buf cs conns = Ok b ->
  (forall n c, In (n, c) cs -> unmixed k0 e c w) -> unmixed k0 e b w.
Proof.
  intros Hb HU i j Li Lj N. destruct (S_cases Hb w Li Lj) as [(n & c & q & q' & H1 & H2 & L1 & L2 & I & -> & _)|[-> _]]; auto.
  apply (HU n c I); auto. rewrite <- (lag_located Hb e H1), <- (lag_located Hb e H2). exact N.
Qed.
Lemma build_unmixed e w mods conns b : build mods conns = Ok b ->
  (forall n c, In (n, c) mods -> unmixed k0 e c w) -> unmixed k0 e b w.
Proof.
  intros Hb H. eapply (@build_ind _ _ _ _ (fun c => unmixed k0 e c w)); [|exact H|exact Hb].
  intros cs cn b' _ HN HU. eapply net_unmixed; eauto.
Qed.
Lemma compile_unmixed e w c b : every_leaf (fun c => unmixed k0 e c w) c -> compile c = Ok b -> unmixed k0 e b w.
Proof. apply (@compile_ind' _ _ _ _ (fun c => unmixed k0 e c w)). intros cs cn b' _ HN HU. eapply net_unmixed; eauto. Qed.

(** C27 *)
Lemma compile_reciprocal w c b : every_leaf (fun c => reciprocal c w) c -> compile c = Ok b -> reciprocal b w.
Proof.
  apply (@compile_ind' _ _ _ _ (fun c => reciprocal c w)). intros cs cn b' _ HN HU i j Li Lj.
  destruct (S_cases HN w Li Lj) as [(n & d & q & q' & H1 & H2 & L1 & L2 & I & -> & ->)|[-> ->]]; auto.
  apply (HU n d I); auto.
Qed.
Lemma compile_uniform e w c b : every_leaf (fun c => uniform k0 e c w) c -> compile c = Ok b -> uniform k0 e b w.
Proof.
  apply (@compile_ind' _ _ _ _ (fun c => uniform k0 e c w)). intros cs cn b' _ HN HU i j Li Lj.
  destruct (S_cases HN w Li Lj) as [(n & d & q & q' & H1 & H2 & L1 & L2 & I & -> & _)|[-> _]]; auto.
  rewrite (lag_located HN e H1), (lag_located HN e H2). apply (HU n d I); auto.
Qed.

End Split.

(** *** Power *)
Section Ring.
Variables (K : Type) (k0 k1 : K) (kadd kmul ksub : K -> K -> K) (kopp : K -> K).
Notation cx := (prod K K).
Notation net := (net K).
Notation c0 := (c0 k0).
Notation c1 := (c1 k0 k1).
Notation cadd := (cadd kadd).
Notation cmul := (cmul kadd kmul ksub).
Notation csub := (csub ksub).
Notation copp := (copp kopp).
Notation csum := (lsum c0 cadd).
Notation comps := (list (string * net)).
Notation net_buf := (@net_buf (nat -> cx) Q (fun _ => c0) 0%Q).
Notation compile := (@compile (nat -> cx) Q (fun _ => c0) 0%Q).
Notation build := (@build (nat -> cx) Q (fun _ => c0) 0%Q).

Section Pow.
Hypothesis KR : ring_theory k0 k1 kadd kmul ksub kopp (@eq K).
Add Ring Kring : KR.
Lemma CR : ring_theory c0 c1 cadd cmul csub copp (@eq cx).
Proof. exact (cx_ring KR). Qed.
Add Ring Cring : CR.

Notation norm2 := (norm2 kadd kmul).
Notation sum := (lsum k0 kadd).

Definition mscatter (M : nat -> nat -> cx) (n : nat) (x : nat -> cx) (i : nat) : cx :=
  csum (fun j => cmul (M i j) (x j)) (seq 0 n).

Lemma seq_add n m : seq 0 (n + m) = seq 0 n ++ map (fun i => n + i) (seq 0 m).
Proof. rewrite seq_app. f_equal. apply seq_shift_map. Qed.

(** Power scattered by the parts adds up. *)
Lemma scatter_blocks (f : string -> bool) w (cs : comps) (x : nat -> cx) :
  sum (fun i => norm2 (mscatter (fun i j => block_mat (@b_S (nat -> cx) Q) (fun _ => c0) cs i j w) (total_ports cs) x i)) (seq 0 (total_ports cs))
  = match cs with
    | [] => k0
    | (n, c) :: r =>
      kadd (power_all k0 kadd kmul (b_np c) (scatter k0 kadd kmul ksub c w x))
           (sum (fun i => norm2 (mscatter (fun i j => block_mat (@b_S (nat -> cx) Q) (fun _ => c0) r i j w) (total_ports r)
                                  (fun j => x (b_np c + j)) i)) (seq 0 (total_ports r)))
    end.
Proof.
  destruct cs as [|[n c] r]; [reflexivity|].
  change (total_ports ((n, c) :: r)) with (b_np c + total_ports r).
  rewrite seq_add, (lsum_app KR), (lsum_map). f_equal.
  - unfold power_all. apply lsum_ext. intros i Ii. apply in_seq in Ii. f_equal.
    unfold mscatter, scatter. rewrite seq_add, (lsum_app CR), lsum_map.
    rewrite (@lsum_ext _ c0 cadd _ (fun j => cmul (block_mat (@b_S (nat -> cx) Q) (fun _ => c0) ((n, c) :: r) i j w) (x j))
      (fun j => cmul (b_S c i j w) (x j)) (seq 0 (b_np c))).
    2:{ intros j Ij. apply in_seq in Ij. cbn [block_mat]. destruct (Nat.ltb_spec i (b_np c)); [|lia].
        destruct (Nat.ltb_spec j (b_np c)); [|lia]. reflexivity. }
    rewrite (lsum_0 CR _ (seq 0 (total_ports r))); [ring|].
    intros j Ij. cbn [block_mat]. destruct (Nat.ltb_spec i (b_np c)); [|lia].
    destruct (Nat.ltb_spec (b_np c + j) (b_np c)); [lia|]. cbn [andb orb]. ring.
  - apply lsum_ext. intros i Ii. f_equal. unfold mscatter. rewrite seq_add, (lsum_app CR), lsum_map.
    rewrite (lsum_0 CR _ (seq 0 (b_np c))).
    2:{ intros j Ij. apply in_seq in Ij. cbn [block_mat]. destruct (Nat.ltb_spec j (b_np c)); [|lia].
        destruct (Nat.ltb_spec (b_np c + i) (b_np c)); [lia|]. cbn [andb orb]. ring. }
    match goal with |- cadd c0 ?s = _ => transitivity s; [ring|] end.
    apply lsum_ext. intros j Ij. cbn [block_mat].
    destruct (Nat.ltb_spec (b_np c + i) (b_np c)); [lia|]. destruct (Nat.ltb_spec (b_np c + j) (b_np c)); [lia|].
    cbn [andb orb]. replace (b_np c + i - b_np c) with i by lia. replace (b_np c + j - b_np c) with j by lia. reflexivity.
Qed.

Lemma power_parts (f : nat -> bool) (n : string) (c : net) (r : comps) (x : nat -> cx) :
  sum (fun i => if f i then norm2 (x i) else k0) (seq 0 (total_ports ((n, c) :: r)))
  = kadd (power_on k0 kadd kmul f (b_np c) x)
         (sum (fun i => if f (b_np c + i) then norm2 (x (b_np c + i)) else k0) (seq 0 (total_ports r))).
Proof.
  change (total_ports ((n, c) :: r)) with (b_np c + total_ports r).
  rewrite seq_add, (lsum_app KR), (lsum_map). reflexivity.
Qed.

Lemma scatter_net cs conns b w x i : net_buf cs conns = Ok b ->
  scatter k0 kadd kmul ksub b w x i =
  mscatter (fun i j => block_mat (@b_S (nat -> cx) Q) (fun _ => c0) cs i j w) (total_ports cs) x i.
Proof. intros Hb. unfold scatter, mscatter. destruct (net_buf_inv Hb) as (_ & _ & -> & _ & _ & _ & -> & _). reflexivity. Qed.

Lemma dark_power c w x : dark k0 c w -> power_all k0 kadd kmul (b_np c) (scatter k0 kadd kmul ksub c w x) = k0.
Proof.
  intros H. unfold power_all. apply (lsum_0 KR). intros i Ii. apply in_seq in Ii.
  assert (E : scatter k0 kadd kmul ksub c w x i = c0).
  { unfold scatter. apply (lsum_0 CR). intros j Ij. apply in_seq in Ij. rewrite H by lia. ring. }
  rewrite E. unfold SimSpec.norm2. cbn. ring.
Qed.

(** Parts that are lossless or dark. *)
Lemma net_lossless_terms (term : string -> bool) cs conns b w : net_buf cs conns = Ok b ->
  (forall n c, In (n, c) cs -> if term n then dark k0 c w else lossless k0 kadd kmul ksub c w) ->
  forall x, power_all k0 kadd kmul (b_np b) (scatter k0 kadd kmul ksub b w x)
    = power_on k0 kadd kmul (fun i => negb (term_ports term cs i)) (b_np b) x.
Proof.
  intros Hb HL x. destruct (net_buf_inv Hb) as (_ & _ & E & _). rewrite E. unfold power_all, power_on.
  rewrite (@lsum_ext _ k0 kadd _ _ (fun i => norm2 (mscatter (fun i j => block_mat (@b_S (nat -> cx) Q) (fun _ => c0) cs i j w) (total_ports cs) x i)))
    by (intros i _; f_equal; apply (scatter_net _ _ _ Hb)).
  clear Hb E b. revert x. induction cs as [|[n c] r IH]; intros x.
  - rewrite (scatter_blocks term). reflexivity.
  - rewrite (scatter_blocks term). rewrite power_parts.
    rewrite IH by (intros m d I; apply HL; right; exact I). f_equal.
    + specialize (HL n c (or_introl eq_refl)). unfold power_on. destruct (term n) eqn:T.
      * rewrite dark_power by exact HL. symmetry. apply (lsum_0 KR). intros i Ii. apply in_seq in Ii.
        unfold term_ports. cbn [owner]. destruct (Nat.ltb_spec i (b_np c)); [|lia]. rewrite T. reflexivity.
      * rewrite HL. unfold power_all. apply lsum_ext. intros i Ii. apply in_seq in Ii.
        unfold term_ports. cbn [owner]. destruct (Nat.ltb_spec i (b_np c)); [|lia]. rewrite T. reflexivity.
    + apply lsum_ext. intros i _. unfold term_ports. cbn [owner].
      destruct (Nat.ltb_spec (b_np c + i) (b_np c)); [lia|]. replace (b_np c + i - b_np c) with i by lia. reflexivity.
Qed.

Lemma compile_lossless w c b : every_leaf (fun c => lossless k0 kadd kmul ksub c w) c -> compile c = Ok b -> lossless k0 kadd kmul ksub b w.
Proof.
  apply (@compile_ind' _ _ _ _ (fun c => lossless k0 kadd kmul ksub c w)). intros cs cn b' _ HN HU x.
  rewrite (@net_lossless_terms (fun _ => false) cs cn b' w HN); [reflexivity|]. intros n d I. exact (HU n d I).
Qed.
End Pow.
End Ring.

(** *** Wave equations part by part *)
Section Parts.
Variables (K : Type) (k0 k1 : K) (kadd kmul ksub : K -> K -> K) (kopp : K -> K).
Hypothesis KR : ring_theory k0 k1 kadd kmul ksub kopp (@eq K).
Notation cx := (prod K K).
Notation net := (net K).
Notation c0 := (c0 k0).
Notation cadd := (cadd kadd).
Notation cmul := (cmul kadd kmul ksub).
Notation csum := (lsum c0 cadd).
Notation comps := (list (string * net)).
Let CR := CR KR.
Add Ring Cring2 : CR.

Lemma csum_block pre (n m : nat) (f : nat -> cx) : pre + n <= m ->
  (forall j, j < m -> (j < pre \/ pre + n <= j) -> f j = c0) ->
  csum f (seq 0 m) = csum (fun q => f (pre + q)) (seq 0 n).
Proof.
  intros L H. replace m with (pre + (n + (m - pre - n))) by lia.
  rewrite seq_add, (lsum_app CR), lsum_map, seq_add, (lsum_app CR), lsum_map.
  rewrite (lsum_0 CR f (seq 0 pre)) by (intros j Ij; apply in_seq in Ij; apply H; lia).
  rewrite (lsum_0 CR (fun x => f (pre + (n + x)))) by (intros j Ij; apply in_seq in Ij; apply H; lia).
  ring.
Qed.

Lemma csum_pick (p : nat -> bool) (f : nat -> cx) m j : j < m -> p j = true ->
  (forall k, k < m -> p k = true -> k = j) ->
  csum (fun k => if p k then f k else c0) (seq 0 m) = f j.
Proof.
  intros L P U. rewrite (@lsum_ext _ c0 cadd _ _ (fun k => if k =? j then f k else c0)).
  - rewrite (lsum_one CR). destruct (Nat.ltb_spec j m); [reflexivity|lia].
  - intros k Ik. apply in_seq in Ik. destruct (Nat.eqb_spec k j) as [->|N]; [rewrite P; reflexivity|].
    destruct (p k) eqn:E; auto. contradiction N. apply U; auto. lia.
Qed.

Theorem waves_parts (mods : comps) conns (b : net) :
  @build (nat -> cx) Q (fun _ => c0) 0%Q mods conns = Ok b ->
  exists cs, sub_components mods conns cs /\
  forall e w T src a o, waves k0 kadd kmul ksub e b w T src a o ->
    (forall t pre n c post q, t < T -> cs = pre ++ (n, c) :: post -> q < b_np c ->
       o t (ports_before pre + q) = cadd (src t (ports_before pre + q))
         (csum (fun q' => cmul (b_S c q q' w) (past k0 a (lag e c q') t (ports_before pre + q'))) (seq 0 (b_np c)))) /\
    (at_most_one_partner b -> orders_ok cs ->
     forall t conn i j, t < T -> In conn (map clean_conn conns) -> wires cs conn i j ->
       a t i = o t j /\ a t j = o t i) /\
    (forall t p, t < T -> p < b_np b -> unconnected b p -> a t p = c0).
Proof.
  intros HB. destruct (build_inv HB) as (cs & Hs & Hb). exists cs. split; [exact Hs|].
  intros e w T src a o HW. destruct (net_buf_inv Hb) as (_ & _ & En & _).
  split; [|split].
  - intros t pre n c post q Lt E Lq.
    assert (LP : ports_before pre + b_np c <= b_np b).
    { rewrite En, E. change (total_ports ?l) with (ports_before l). rewrite ports_before_app, ports_before_cons. lia. }
    destruct (HW t (ports_before pre + q) Lt ltac:(lia)) as [_ ->]. f_equal.
    rewrite (@csum_block (ports_before pre) (b_np c)); auto.
    + apply lsum_ext. intros q' Iq. apply in_seq in Iq. f_equal.
      * destruct (S_block Hb (ports_before pre + q') w E Lq) as [-> _].
        destruct (Nat.leb_spec (ports_before pre) (ports_before pre + q')); [|lia].
        destruct (Nat.ltb_spec (ports_before pre + q') (ports_before pre + b_np c)); [|lia]. cbn [andb].
        do 2 f_equal. lia.
      * rewrite (@lag_located _ _ cs _ b Hb e (ports_before pre + q') n c q'); [reflexivity|].
        exists pre, post. split; [exact E|]. lia.
    + intros j Lj Hj. destruct (S_block Hb j w E Lq) as [-> _].
      replace ((ports_before pre <=? j) && (j <? ports_before pre + b_np c)) with false; [ring|].
      symmetry. apply andb_false_iff. destruct Hj; [left; apply Nat.leb_gt; lia|right; apply Nat.ltb_ge; lia].
  - intros AM HO t conn i j Lt Ic Hw.
    assert (Hij : b_C b i j = true /\ b_C b j i = true).
    { split; apply (net_buf_C (sc_once Hs) Hb); right; exists conn; auto. }
    destruct Hij as [H1 H2]. destruct (net_C_range (sc_once Hs) Hb HO H1) as [Li Lj].
    destruct (HW t i Lt Li) as [-> _]. destruct (HW t j Lt Lj) as [-> _].
    split; apply csum_pick; auto; intros k Lk Hk; [apply (AM i k j)|apply (AM j k i)]; auto.
  - intros t p Lt Lp HU. destruct (HW t p Lt Lp) as [-> _]. apply (lsum_0 CR). intros j Ij. apply in_seq in Ij.
    destruct (HU j ltac:(lia)) as [-> _]. reflexivity.
Qed.
End Parts.
