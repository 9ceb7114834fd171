(** Consequences: linearity, causality, time shifts, batches, wavelengths. *)
From Coq Require Import QArith Ring Permutation.
From Verif Require Import Base NetModel SimModel SimAlg SimSpec SimNodes SimProofs.
Set Implicit Arguments.
Unset Strict Implicit.
Local Open Scope nat_scope.

Lemma Forall2_len A B (P : A -> B -> Prop) l r : Forall2 P l r -> length l = length r.
Proof. induction 1; cbn; congruence. Qed.

Section More.
Variables (K : Type) (k0 k1 : K) (kadd kmul ksub : K -> K -> K) (kopp : K -> K).
Hypothesis KR : ring_theory k0 k1 kadd kmul ksub kopp (@eq K).
Add Ring Kring : KR.
Notation cx := (prod K K).
Notation c0 := (c0 k0).
Notation c1 := (c1 k0 k1).
Notation cadd := (cadd kadd).
Notation cmul := (cmul kadd kmul ksub).
Notation csub := (csub ksub).
Notation copp := (copp kopp).
Notation csum := (lsum c0 cadd).
Let CR : ring_theory c0 c1 cadd cmul csub copp (@eq cx) := cx_ring KR.
Add Ring Cring : CR.
Variable solve : nat -> nat -> mat K -> mat K -> option (mat K).
Notation initialize := (initialize k0 k1 kadd kmul ksub kopp solve).
Notation fwd := (forward k0 k1 kadd kmul ksub kopp solve).
Notation zero := (zero_field k0).

(** *** Node recurrences *)
Section Rec.
Variables (n : nat) (R S : nat -> nat -> cx) (lg : nat -> nat).
Hypothesis L1 : forall k, k < n -> lg k <> 0.

Definition recur (src N : nat -> nat -> cx) : Prop := forall t k, k < n -> N t k =
  csum (fun j => cmul (R k j) (cadd (src t j) (csum (fun l => cmul (S j l) (past k0 N (lg l) t l)) (seq 0 n)))) (seq 0 n).

Lemma recur_unique src src' N N' T :
  (forall t j, t <= T -> j < n -> src t j = src' t j) -> recur src N -> recur src' N' ->
  forall t k, t <= T -> k < n -> N t k = N' t k.
Proof.
  intros E H H' t. induction t as [t IH] using lt_wf_ind. intros k Lt Lk.
  rewrite H, H' by auto. apply lsum_ext. intros j Ij. apply in_seq in Ij. f_equal. rewrite E by lia. f_equal.
  apply lsum_ext. intros l Il. apply in_seq in Il. f_equal. unfold past.
  destruct (Nat.ltb_spec t (lg l)); auto. specialize (@L1 l ltac:(lia)). apply IH; lia.
Qed.

Lemma recur_lin x y s s' N N' : recur s N -> recur s' N' ->
  recur (fun t j => cadd (cmul x (s t j)) (cmul y (s' t j))) (fun t j => cadd (cmul x (N t j)) (cmul y (N' t j))).
Proof.
  intros H H' t k Lk. rewrite H, H' by auto. rewrite <- !(lsum_mul CR), <- (lsum_add CR).
  apply lsum_ext. intros j Ij.
  match goal with |- cadd (cmul x (cmul ?r (cadd ?a ?b))) (cmul y (cmul ?r (cadd ?c ?d))) = _ =>
    transitivity (cmul r (cadd (cadd (cmul x a) (cmul y c)) (cadd (cmul x b) (cmul y d)))) end; [ring|].
  do 2 f_equal. rewrite <- !(lsum_mul CR), <- (lsum_add CR). apply lsum_ext. intros l _.
  unfold past. destruct (t <? lg l); ring.
Qed.

Lemma recur_shift d s N : recur s N -> recur (fun t => past k0 s d t) (fun t => past k0 N d t).
Proof.
  intros H t k Lk. unfold past at 1. destruct (Nat.ltb_spec t d).
  - symmetry. apply (lsum_0 CR). intros j _. unfold past at 1.
    replace (t <? d) with true by (symmetry; now apply Nat.ltb_lt).
    rewrite (lsum_0 CR); [ring|]. intros l _. unfold past.
    destruct (t <? lg l); [ring|]. replace (t - lg l <? d) with true by (symmetry; apply Nat.ltb_lt; lia). ring.
  - rewrite H by auto. apply lsum_ext. intros j _. f_equal. unfold past at 2.
    replace (t <? d) with false by (symmetry; apply Nat.ltb_ge; lia). f_equal.
    apply lsum_ext. intros l _. f_equal. unfold past.
    destruct (Nat.ltb_spec (t - d) (lg l)), (Nat.ltb_spec t (lg l)); try lia; auto.
    + destruct (Nat.ltb_spec (t - lg l) d); auto. lia.
    + destruct (Nat.ltb_spec (t - lg l) d); [lia|]. f_equal. lia.
Qed.
End Rec.

Section Passive.
Variables (A : Type) (act : A -> nat -> field K -> A * field K) (e : env) (b : net K).
Notation mc := (mc_nodes e b).
Notation forward := (fwd act e b).
Hypothesis Sep : separate b.
Hypothesis NA : num_act b = 0.

Lemma out_recur m source s0 w c : initialize e b = Ok (Some m) -> w < e_num_wl e ->
  recur (length mc) (fun k j => (fst (i_C m w) k j, snd (i_C m w) k j))
        (fun j l => b_S b (nth j mc 0) (nth l mc 0) w) (fun l => lag e b (nth l mc 0))
        (fun t j => injected k0 b source w c t (nth j mc 0))
        (fun t k => at_ (out k0 kadd kmul ksub act b m (node_source k0 (num_src b) source) s0 (i_depth m) t) w k c).
Proof.
  intros EI Lw t k Lk. rewrite (out_at KR act source s0 EI t k c Lw). apply lsum_ext. intros j Ij. apply in_seq in Ij.
  f_equal. unfold emitted. rewrite NA. cbn [Nat.eqb].
  rewrite (scattered_at KR act source s0 EI Sep t w c) by lia. reflexivity.
Qed.

(** Everything a passive simulation gives, as recurrences over the same matrices. *)
Lemma forward_recur w : w < e_num_wl e ->
  forall s0 source outs, forward s0 source = Ok outs ->
  exists R S lg, (forall k, k < length mc -> lg k <> 0) /\
  forall s0 source outs, forward s0 source = Ok outs -> forall c, exists N,
    recur (length mc) R S lg (fun t j => injected k0 b source w c t (nth j mc 0)) N /\
    length outs = e_num_t e /\
    forall t p, t < e_num_t e -> p < b_np b -> b_det b p = true ->
    at_ (nth t outs zero) w (rank (b_det b) p) c = N t (index p mc) /\ index p mc < length mc.
Proof.
  intros Lw s0 source outs HF. destruct (forward_inv HF) as (m & EI & _ & _ & _).
  exists (fun k j => (fst (i_C m w) k j, snd (i_C m w) k j)),
    (fun j l => b_S b (nth j mc 0) (nth l mc 0) w), (fun l => lag e b (nth l mc 0)).
  split.
  { intros k Lk. rewrite (lag_mc Sep Lk). lia. }
  clear - KR EI Sep NA Lw. intros s0 source outs HF c.
  destruct (forward_inv HF) as (m' & EI' & _ & _ & EO).
  rewrite EI in EI'. injection EI' as <-.
  eexists. split; [apply out_recur; auto; eassumption|].
  split; [rewrite EO, map_length, seq_length; reflexivity|].
  intros t p Lt Lp Dp. destruct (det_read EI Sep EO w c Lt Lp Dp) as (k & Lk & <- & ->).
  assert (ND : NoDup mc).
  { eapply Permutation_NoDup; [apply Permutation_sym, mc_perm; auto|]. apply NoDup_filter, seq_NoDup. }
  rewrite (index_nth ND Lk). auto.
Qed.

Lemma inj_ext w c t j (s s' : nat -> field K) :
  (forall k, k < num_src b -> at_ (s t) w k c = at_ (s' t) w k c) -> j < b_np b ->
  injected k0 b s w c t j = injected k0 b s' w c t j.
Proof.
  intros E Lj. unfold injected. destruct (b_src b j) eqn:F; auto. apply E. apply rank_lt; auto.
Qed.

Lemma mc_lt j : j < length mc -> nth j mc 0 < b_np b.
Proof. intros L. apply (in_mc e (nth j mc 0) Sep), nth_In, L. Qed.

Theorem forward_linear s0 s1 s2 source1 source2 source outs1 outs2 outs (x y : cx) w c :
  w < e_num_wl e ->
  (forall t k, t < e_num_t e -> k < num_src b ->
     at_ (source t) w k c = cadd (cmul x (at_ (source1 t) w k c)) (cmul y (at_ (source2 t) w k c))) ->
  forward s1 source1 = Ok outs1 -> forward s2 source2 = Ok outs2 -> forward s0 source = Ok outs ->
  forall t k, t < e_num_t e -> k < num_det b ->
  at_ (nth t outs zero) w k c =
  cadd (cmul x (at_ (nth t outs1 zero) w k c)) (cmul y (at_ (nth t outs2 zero) w k c)).
Proof.
  intros Lw E H1 H2 H t k Lt Lk.
  destruct (forward_recur Lw H) as (R & S & lg & Hl & G).
  destruct (G _ _ _ H c) as (N & HN & _ & ON).
  destruct (G _ _ _ H1 c) as (N1 & HN1 & _ & ON1). destruct (G _ _ _ H2 c) as (N2 & HN2 & _ & ON2).
  destruct (nth_rank 0 Lk) as (p & Lp & Dp & <- & _).
  destruct (ON t p Lt Lp Dp) as [-> Li]. destruct (ON1 t p Lt Lp Dp) as [-> _]. destruct (ON2 t p Lt Lp Dp) as [-> _].
  refine (recur_unique Hl _ HN (recur_lin x y HN1 HN2) (le_n t) Li).
  intros t' j Lt' Lj. apply mc_lt in Lj. unfold injected.
  destruct (b_src b (nth j mc 0)) eqn:F; [|ring]. apply E; [lia|]. apply rank_lt; auto.
Qed.

Theorem forward_zero s0 source outs w c : w < e_num_wl e ->
  (forall t k, t < e_num_t e -> k < num_src b -> at_ (source t) w k c = c0) ->
  forward s0 source = Ok outs ->
  forall t k, t < e_num_t e -> k < num_det b -> at_ (nth t outs zero) w k c = c0.
Proof.
  intros Lw E H t k Lt Lk.
  rewrite (@forward_linear s0 s0 s0 source source source outs outs outs c0 c0 w c); auto.
  - ring.
  - intros t' j Lt' Lj. rewrite E by auto. ring.
Qed.

(** Delaying the source by [d] steps delays the outputs by [d] steps. *)
Theorem forward_shift s0 s1 source source1 outs outs1 d w c : w < e_num_wl e ->
  (forall t k, t < e_num_t e -> k < num_src b ->
     at_ (source1 t) w k c = past k0 (fun t k => at_ (source t) w k c) d t k) ->
  forward s0 source = Ok outs -> forward s1 source1 = Ok outs1 ->
  forall t k, t < e_num_t e -> k < num_det b ->
  at_ (nth t outs1 zero) w k c = past k0 (fun t k => at_ (nth t outs zero) w k c) d t k.
Proof.
  intros Lw E H H1 t k Lt Lk.
  destruct (forward_recur Lw H) as (R & S & lg & Hl & G).
  destruct (G _ _ _ H c) as (N & HN & _ & ON). destruct (G _ _ _ H1 c) as (N1 & HN1 & _ & ON1).
  destruct (nth_rank 0 Lk) as (p & Lp & Dp & <- & _).
  destruct (ON1 t p Lt Lp Dp) as [-> Li].
  transitivity (past k0 N d t (index p mc)).
  - refine (recur_unique Hl _ HN1 (recur_shift d HN) (le_n t) Li).
    intros t' j Lt' Lj. apply mc_lt in Lj. unfold past, injected.
    destruct (b_src b (nth j mc 0)) eqn:F; [|destruct (t' <? d); reflexivity].
    rewrite E by (try lia; apply rank_lt; auto). reflexivity.
  - unfold past. destruct (Nat.ltb_spec t d); auto. symmetry. apply ON; auto. lia.
Qed.

End Passive.

(** *** Related runs: equal at chosen wavelengths and batch columns. *)
Section Related.
Variables (A A' : Type) (act : A -> nat -> field K -> A * field K) (act' : A' -> nat -> field K -> A' * field K).
Variable P : nat -> nat -> nat -> nat -> Prop.
Variable RA : A -> A' -> Prop.
Definition frel (x y : field K) : Prop := forall w c w' c', P w c w' c' -> forall i, at_ x w i c = at_ y w' i c'.
Hypothesis act_rel : forall s s' t x y, RA s s' -> frel x y ->
  RA (fst (act s t x)) (fst (act' s' t y)) /\ frel (snd (act s t x)) (snd (act' s' t y)).
Variables (b b' : net K) (m m' : init K) (src src' : nat -> field K) (s0 : A) (s0' : A') (D : nat).
Hypothesis HA : num_act b = num_act b'.
Hypothesis HL : length (i_mc m) = length (i_mc m').
Hypothesis HS : forall w c w' c', P w c w' c' -> forall i j, i_S m w i j = i_S m' w' i j.
Hypothesis HC : forall w c w' c', P w c w' c' -> forall i j, fst (i_C m w) i j = fst (i_C m' w') i j /\ snd (i_C m w) i j = snd (i_C m' w') i j.
Hypothesis HM : forall t i, i_mask m t i = i_mask m' t i.
Notation step := (step k0 kadd kmul ksub act b m).
Notation step' := (SimModel.step k0 kadd kmul ksub act' b' m').
Notation hist := (hist k0 kadd kmul ksub act b m src s0 D).
Notation hist' := (SimProofs.hist k0 kadd kmul ksub act' b' m' src' s0' D).
Notation out := (out k0 kadd kmul ksub act b m src s0 D).
Notation out' := (SimProofs.out k0 kadd kmul ksub act' b' m' src' s0' D).

Lemma frel_zero : frel zero zero.
Proof. intros w c w' c' _ i. reflexivity. Qed.

Lemma read_rel h h' : length h = length h' -> (forall k, frel (nth k h zero) (nth k h' zero)) ->
  frel (read_buffer k0 kadd kmul m h) (read_buffer k0 kadd kmul m' h').
Proof.
  intros L H w c w' c' Hp i. unfold read_buffer, at_. cbn [fst snd]. rewrite <- L.
  f_equal; apply lsum_ext; intros k _; rewrite HM; f_equal; specialize (H k w c w' c' Hp i); unfold at_ in H; congruence.
Qed.

Lemma cmv_rel n rA iA rA' iA' x y :
  (forall w c w' c', P w c w' c' -> forall i j, rA w i j = rA' w' i j /\ iA w i j = iA' w' i j) -> frel x y ->
  frel (cmv k0 kadd kmul ksub n rA iA x) (cmv k0 kadd kmul ksub n rA' iA' y).
Proof.
  intros H Hx w c w' c' Hp i. rewrite !(cmv_at KR). apply lsum_ext. intros j _.
  destruct (H w c w' c' Hp i j) as [-> ->]. rewrite (Hx w c w' c' Hp j). reflexivity.
Qed.

Lemma step_rel s s' t x y h h' : RA s s' -> frel x y -> length h = length h' ->
  (forall k, frel (nth k h zero) (nth k h' zero)) ->
  RA (fst (fst (step s t x h))) (fst (fst (step' s' t y h'))) /\
  frel (snd (fst (step s t x h))) (snd (fst (step' s' t y h'))).
Proof.
  intros Hs Hx L H. unfold SimModel.step. rewrite <- HA, <- HL.
  assert (F : frel (add_field kadd (cmv k0 kadd kmul ksub (length (i_mc m)) (fun w i j => fst (i_S m w i j)) (fun w i j => snd (i_S m w i j)) (read_buffer k0 kadd kmul m h)) x)
                   (add_field kadd (cmv k0 kadd kmul ksub (length (i_mc m)) (fun w i j => fst (i_S m' w i j)) (fun w i j => snd (i_S m' w i j)) (read_buffer k0 kadd kmul m' h')) y)).
  { assert (F : frel (cmv k0 kadd kmul ksub (length (i_mc m)) (fun w i j => fst (i_S m w i j)) (fun w i j => snd (i_S m w i j)) (read_buffer k0 kadd kmul m h))
                   (cmv k0 kadd kmul ksub (length (i_mc m)) (fun w i j => fst (i_S m' w i j)) (fun w i j => snd (i_S m' w i j)) (read_buffer k0 kadd kmul m' h'))).
    { apply cmv_rel; [|apply read_rel; auto]. intros w c w' c' Hp i j. rewrite (HS Hp). auto. }
    intros w c w' c' Hp i. specialize (F w c w' c' Hp i). specialize (Hx w c w' c' Hp i).
    unfold at_, add_field in *. cbn [fst snd] in *. congruence. }
  destruct (num_act b =? 0).
  - cbn [fst snd]. split; auto. apply cmv_rel; auto.
  - destruct (act_rel t Hs F) as [G1 G2]. destruct (act s t _), (act' s' t _). cbn [fst snd] in *.
    split; auto. apply cmv_rel; auto.
Qed.

Lemma hist_rel T : RA s0 s0' -> (forall t, t < T -> frel (src t) (src' t)) ->
  forall t, t <= T -> RA (fst (hist t)) (fst (hist' t)) /\ Forall2 frel (snd (hist t)) (snd (hist' t)).
Proof.
  intros H0 Hsrc. induction t as [|t IH]; intros L; [split; [exact H0|constructor]|].
  destruct (IH ltac:(lia)) as [I1 I2]. rewrite !hist_S. cbn [fst snd].
  assert (W : Forall2 frel (window k0 D (snd (hist t))) (window k0 D (snd (hist' t)))).
  { unfold window. 
    assert (W : Forall2 frel (snd (hist t) ++ repeat zero D) (snd (hist' t) ++ repeat zero D)).
    { apply Forall2_app; auto. clear. induction D; constructor; auto. apply frel_zero. }
    revert W. generalize (snd (hist t) ++ repeat zero D) (snd (hist' t) ++ repeat zero D). clear.
    induction D as [|d IH]; intros l l' W; [constructor|]. destruct W; constructor; auto. }
  assert (LW := Forall2_len W).
  assert (NW : forall k, frel (nth k (window k0 D (snd (hist t))) zero) (nth k (window k0 D (snd (hist' t))) zero)).
  { clear - W. revert W. generalize (window k0 D (snd (hist t))) (window k0 D (snd (hist' t))).
    induction 1; intros k; destruct k; cbn; auto using frel_zero. }
  destruct (step_rel t I1 (Hsrc t ltac:(lia)) LW NW) as [S1 S2].
  split; [exact S1|]. constructor; [exact S2|exact I2].
Qed.

Lemma out_rel T : RA s0 s0' -> (forall t, t < T -> frel (src t) (src' t)) ->
  forall t, t < T -> frel (out t) (out' t).
Proof.
  intros H0 Hsrc t L. destruct (hist_rel H0 Hsrc (t := S t) ltac:(lia)) as [_ H].
  rewrite !hist_S in H. cbn [snd] in H. inversion H; subst. auto.
Qed.

End Related.

Section FwdRel.
Variables (A A' : Type) (act : A -> nat -> field K -> A * field K) (act' : A' -> nat -> field K -> A' * field K).
Variable P : nat -> nat -> nat -> nat -> Prop.
Variable RA : A -> A' -> Prop.
Hypothesis act_rel : forall s s' t x y, RA s s' -> frel P x y ->
  RA (fst (act s t x)) (fst (act' s' t y)) /\ frel P (snd (act s t x)) (snd (act' s' t y)).

Lemma forward_rel e e' b b' m m' s0 s0' source source' outs outs' T :
  initialize e b = Ok (Some m) -> initialize e' b' = Ok (Some m') ->
  num_act b = num_act b' -> num_src b = num_src b' -> num_det b = num_det b' ->
  i_mc m = i_mc m' -> i_depth m = i_depth m' ->
  (forall w c w' c', P w c w' c' -> forall i j, i_S m w i j = i_S m' w' i j) ->
  (forall w c w' c', P w c w' c' -> i_C m w = i_C m' w') ->
  (forall t i, i_mask m t i = i_mask m' t i) ->
  RA s0 s0' ->
  (forall t w c w' c' k, t < T -> P w c w' c' -> k < num_src b -> at_ (source t) w k c = at_ (source' t) w' k c') ->
  fwd act e b s0 source = Ok outs -> fwd act' e' b' s0' source' = Ok outs' ->
  T <= e_num_t e -> T <= e_num_t e' ->
  forall t, t < T -> frel P (nth t outs zero) (nth t outs' zero).
Proof.
  intros EI EI' HA Hs Hd Hmc HD HS HC HM H0 Hsrc HF HF' LT LT' t Lt.
  destruct (forward_inv HF) as (m1 & E1 & _ & _ & ->). rewrite EI in E1. injection E1 as <-.
  destruct (forward_inv HF') as (m2 & E2 & _ & _ & ->). rewrite EI' in E2. injection E2 as <-.
  assert (ND : forall (f : nat -> field K) n, t < n -> nth t (map f (seq 0 n)) zero = f t).
  { intros f n L. rewrite nth_indep with (d' := f 0) by (rewrite map_length, seq_length; auto).
    rewrite map_nth, seq_nth; auto. }
  rewrite !ND by lia.
  assert (O : frel P
    (out k0 kadd kmul ksub act b m (node_source k0 (num_src b) source) s0 (i_depth m) t)
    (out k0 kadd kmul ksub act' b' m' (node_source k0 (num_src b') source') s0' (i_depth m') t)).
  { rewrite <- HD. apply (out_rel act_rel) with (T := T); auto.
    - rewrite Hmc. reflexivity.
    - intros w c w' c' Hp i j. rewrite (HC w c w' c' Hp). auto.
    - intros t' Lt' w c w' c' Hp i. rewrite <- Hs. specialize (Hsrc t' w c w' c' i Lt' Hp).
      unfold node_source, at_ in *. cbn [fst snd].
      destruct (Nat.ltb_spec i (num_src b)); auto. }
  intros w c w' c' Hp i. rewrite <- Hmc, <- Hd. unfold detect. apply (O w c w' c' Hp (_ + i)).
Qed.
End FwdRel.

(** The run up to step [T] depends only on the source up to step [T]. *)
Theorem forward_causal (A : Type) (act : A -> nat -> field K -> A * field K) (RA : A -> A -> Prop)
  e e' b s0 s0' source source' outs outs' T :
  (forall s s' t x y, RA s s' -> feq x y ->
     RA (fst (act s t x)) (fst (act s' t y)) /\ feq (snd (act s t x)) (snd (act s' t y))) ->
  RA s0 s0' ->
  e_freq e = e_freq e' -> e_dt e = e_dt e' -> e_num_wl e = e_num_wl e' ->
  (forall t w c k, t <= T -> k < num_src b -> at_ (source t) w k c = at_ (source' t) w k c) ->
  fwd act e b s0 source = Ok outs -> fwd act e' b s0' source' = Ok outs' ->
  T < e_num_t e -> T < e_num_t e' ->
  forall t, t <= T -> feq (nth t outs zero) (nth t outs' zero).
Proof.
  intros Ha H0 E1 E2 E3 Hsrc HF HF' LT LT' t Lt.
  destruct (forward_inv HF) as (m & EI & _). destruct (forward_inv HF') as (m' & EI' & _).
  assert (Em : m = m').
  { destruct e as [f d n w], e' as [f' d' n' w']. cbn in E1, E2, E3. subst.
    cut (Ok (Some m) = Ok (Some m')); [congruence|]. rewrite <- EI, <- EI'. reflexivity. }
  subst m'.
  assert (FE : forall x y : field K, frel (fun w c w' c' => w = w' /\ c = c') x y <-> feq x y).
  { intros x y. split; [intros H w i c; apply H; auto|intros H w c w' c' [<- <-] i; apply H]. }
  apply FE.
  refine (forward_rel (RA := RA) (P := fun w c w' c' => w = w' /\ c = c') (T := S T) _ EI EI' _ _ _ _ _ _ _ _ H0 _ HF HF' _ _ _); try lia; auto.
  - intros s s' t' x y Hs Hx. rewrite FE in *. auto.
  - intros w c w' c' [<- _] i j. reflexivity.
  - intros w c w' c' [<- _]. reflexivity.
  - intros t' w c w' c' k L [<- <-] Lk. apply Hsrc; auto. lia.
Qed.

(** Batch column [c] of a run is column [c'] of any run with the same source column. *)
Theorem forward_batch (A : Type) (act : A -> nat -> field K -> A * field K) (RA : A -> A -> Prop)
  e b s0 s0' source source' outs outs' c c' :
  (forall s s' t x y, RA s s' -> (forall w i, at_ x w i c = at_ y w i c') ->
     RA (fst (act s t x)) (fst (act s' t y)) /\
     (forall w i, at_ (snd (act s t x)) w i c = at_ (snd (act s' t y)) w i c')) ->
  RA s0 s0' ->
  (forall t w k, t < e_num_t e -> k < num_src b -> at_ (source t) w k c = at_ (source' t) w k c') ->
  fwd act e b s0 source = Ok outs -> fwd act e b s0' source' = Ok outs' ->
  forall t w k, t < e_num_t e -> at_ (nth t outs zero) w k c = at_ (nth t outs' zero) w k c'.
Proof.
  intros Ha H0 Hsrc HF HF' t w k Lt.
  destruct (forward_inv HF) as (m & EI & _). destruct (forward_inv HF') as (m' & EI' & _).
  rewrite EI in EI'. injection EI' as <-.
  assert (FE : forall x y : field K, frel (fun w d w' d' => w = w' /\ c = d /\ c' = d') x y <-> forall w i, at_ x w i c = at_ y w i c').
  { intros x y. split; [intros H w' i; apply H; auto|intros H w1 d w2 d' (<- & <- & <-) i; apply H]. }
  revert w k. apply FE.
  refine (forward_rel (RA := RA) (P := fun w d w' d' => w = w' /\ c = d /\ c' = d') (T := e_num_t e) _ EI EI _ _ _ _ _ _ _ _ H0 _ HF HF' _ _ _); try lia; auto.
  - intros s s' t' x y Hs Hx. rewrite FE in *. auto.
  - intros w d w' d' [<- _] i j. reflexivity.
  - intros w d w' d' [<- _]. reflexivity.
  - intros t' w d w' d' k L (<- & <- & <-) Lk. apply Hsrc; auto.
Qed.

(** The network and the environment restricted to one wavelength. *)
Definition at_wl (b : net K) (w : nat) : net K :=
  {| b_np := b_np b; b_C := b_C b; b_src := b_src b; b_det := b_det b; b_act := b_act b;
     b_order := b_order b; b_S := fun i j _ => b_S b i j w; b_del := b_del b |}.
Definition one_wl (e : env) : env :=
  {| e_freq := e_freq e; e_dt := e_dt e; e_num_t := e_num_t e; e_num_wl := 1 |}.

Theorem forward_wl (A A' : Type) (act : A -> nat -> field K -> A * field K) (act' : A' -> nat -> field K -> A' * field K)
  (RA : A -> A' -> Prop) e b s0 s0' source source' outs w :
  (forall s s' t x y, RA s s' -> (forall i c, at_ x w i c = at_ y 0 i c) ->
     RA (fst (act s t x)) (fst (act' s' t y)) /\
     (forall i c, at_ (snd (act s t x)) w i c = at_ (snd (act' s' t y)) 0 i c)) ->
  RA s0 s0' -> w < e_num_wl e ->
  (forall t c k, t < e_num_t e -> k < num_src b -> at_ (source t) w k c = at_ (source' t) 0 k c) ->
  fwd act e b s0 source = Ok outs ->
  exists outs', fwd act' (one_wl e) (at_wl b w) s0' source' = Ok outs' /\
  forall t k c, t < e_num_t e -> at_ (nth t outs zero) w k c = at_ (nth t outs' zero) 0 k c.
Proof.
  intros Ha H0 Lw Hsrc HF.
  destruct (forward_inv HF) as (m & EI & EB & HN & _).
  destruct (initialize_inv EI) as (HT & Hmc & Emc & HS & HC & HM & HD).
  assert (EI' : exists m', initialize (one_wl e) (at_wl b w) = Ok (Some m') /\ i_C m' 0 = i_C m w).
  { unfold SimModel.initialize. cbv zeta.
    change (terminated (at_wl b w)) with (terminated b). rewrite HT. cbn [negb orb].
    change (mc_sorted (one_wl e) (at_wl b w)) with (mc_sorted e b).
    change (mc_nodes (one_wl e) (at_wl b w)) with (mc_nodes e b).
    change (ml_nodes (one_wl e) (at_wl b w)) with (ml_nodes e b).
    destruct (Nat.eqb_spec (length (mc_sorted e b)) 0) as [E|_].
    { apply length_zero_iff_nil in E. contradiction. }
    change (seq 0 (e_num_wl (one_wl e))) with [0]. cbn [mapM].
    change (reduced_C k0 k1 kadd kmul ksub kopp solve (at_wl b w) (mc_nodes e b) (ml_nodes e b) 0)
      with (reduced_C k0 k1 kadd kmul ksub kopp solve b (mc_nodes e b) (ml_nodes e b) w).
    rewrite (HC w Lw). cbn [bind]. eexists. split; [reflexivity|]. reflexivity. }
  destruct EI' as (m' & EI' & EC).
  destruct (initialize_inv EI') as (_ & _ & Emc' & HS' & _ & HM' & HD').
  change (mc_nodes (one_wl e) (at_wl b w)) with (mc_nodes e b) in *.
  assert (Edel : forall i, i_delay m' i = i_delay m i).
  { intros i. rewrite (initialize_delay EI), (initialize_delay EI'). reflexivity. }
  assert (EB' : buffer_depth (one_wl e) m' = Ok (i_depth m')).
  { rewrite HD'. change (steps (one_wl e)) with (steps e). cbn [b_del b_np at_wl]. rewrite <- HD.
    unfold buffer_depth in *. cbn [e_freq e_dt one_wl].
    rewrite Emc', <- Emc, (map_ext _ _ Edel). exact EB. }
  assert (HF' : exists outs', fwd act' (one_wl e) (at_wl b w) s0' source' = Ok outs').
  { unfold SimModel.forward. rewrite EI'. cbn [bind]. rewrite EB'. cbn [bind]. rewrite Nat.eqb_refl. cbn [negb].
    change (num_det (at_wl b w)) with (num_det b). change (e_num_t (one_wl e)) with (e_num_t e).
    rewrite Emc', <- Emc.
    destruct (Nat.eqb_spec (num_det b) 0) as [E|]; cbn [andb]; [|eexists; reflexivity].
    destruct (HN E) as [->|E'].
    - eexists; reflexivity.
    - rewrite E'. rewrite Nat.eqb_refl. rewrite andb_false_r. eexists; reflexivity. }
  destruct HF' as (outs' & HF'). exists outs'. split; [exact HF'|].
  intros t k c Lt.
  assert (FE : forall x y : field K, frel (fun u c u' c' => w = u /\ 0 = u' /\ c = c') x y <-> forall i c, at_ x w i c = at_ y 0 i c).
  { intros x y. split; [intros H i c1; apply H; auto|intros H u c1 u' c2 (<- & <- & <-) i; apply H]. }
  revert k c. apply FE.
  refine (forward_rel (RA := RA) (P := fun u c u' c' => w = u /\ 0 = u' /\ c = c') (T := e_num_t e) _ EI EI' _ _ _ _ _ _ _ _ H0 _ HF HF' _ _ _); auto.
  - intros s s' t' x y Hs Hx. rewrite FE in *. auto.
  - congruence.
  - rewrite HD, HD'. reflexivity.
  - intros u c u' c' (<- & <- & _) i j. rewrite HS, HS'. reflexivity.
  - intros u c u' c' (<- & <- & _). congruence.
  - intros t' i. rewrite HM, HM'. reflexivity.
  - intros t' u c u' c' k L (<- & <- & <-) Lk. apply Hsrc; auto.
Qed.

(** *** Power *)
Notation fwdp := (forward_power k0 k1 kadd kmul ksub kopp solve).

Lemma power_norm (A : Type) (act : A -> nat -> field K -> A * field K) e b s0 source :
  (forall outs, fwd act e b s0 source = Ok outs ->
     exists ps, fwdp act e b s0 source = Ok ps /\ length ps = length outs /\
     forall t w k c, t < length outs -> nth t ps (fun _ _ _ => k0) w k c = norm2 kadd kmul (at_ (nth t outs zero) w k c)) /\
  (forall x, fwd act e b s0 source = Err x -> fwdp act e b s0 source = Err x).
Proof.
  unfold forward_power. split.
  - intros outs ->. eexists. split; [reflexivity|]. split; [apply map_length|].
    intros t w k c L. rewrite nth_indep with (d' := power kadd kmul zero) by (rewrite map_length; auto).
    rewrite map_nth. reflexivity.
  - intros x ->. reflexivity.
Qed.

Lemma power_phase (A : Type) (act : A -> nat -> field K -> A * field K) e b s0 s1 source source1 ps ps1 (u : cx) w c :
  separate b -> num_act b = 0 -> w < e_num_wl e -> norm2 kadd kmul u = k1 ->
  (forall t k, t < e_num_t e -> k < num_src b -> at_ (source1 t) w k c = cmul u (at_ (source t) w k c)) ->
  fwdp act e b s0 source = Ok ps -> fwdp act e b s1 source1 = Ok ps1 ->
  forall t k, t < e_num_t e -> k < num_det b ->
  nth t ps1 (fun _ _ _ => k0) w k c = nth t ps (fun _ _ _ => k0) w k c.
Proof.
  intros Sep NA Lw Hu Hs H H1 t k Lt Lk.
  destruct (fwd act e b s0 source) as [outs|x] eqn:HF.
  2:{ rewrite (proj2 (power_norm act e b s0 source) x HF) in H. discriminate. }
  destruct (fwd act e b s1 source1) as [outs1|x] eqn:HF1.
  2:{ rewrite (proj2 (power_norm act e b s1 source1) x HF1) in H1. discriminate. }
  destruct (proj1 (power_norm act e b s0 source) outs HF) as (p & Hp & _ & Ep). rewrite H in Hp. injection Hp as <-.
  destruct (proj1 (power_norm act e b s1 source1) outs1 HF1) as (p1 & Hp1 & _ & Ep1). rewrite H1 in Hp1. injection Hp1 as <-.
  assert (L : length outs = e_num_t e) by (destruct (forward_inv HF) as (m & _ & _ & _ & ->); rewrite map_length, seq_length; auto).
  assert (L1 : length outs1 = e_num_t e) by (destruct (forward_inv HF1) as (m & _ & _ & _ & ->); rewrite map_length, seq_length; auto).
  rewrite Ep, Ep1 by lia.
  rewrite (@forward_linear A act e b Sep NA s1 s0 s0 source source source1 outs outs outs1 u c0 w c); auto.
  - unfold norm2 in *. set (z := at_ _ w k c). destruct u as [ur ui], z as [zr zi].
    cbv [SimAlg.cadd SimAlg.cmul SimAlg.c0]. cbn [fst snd] in *.
    transitivity (kmul (kadd (kmul ur ur) (kmul ui ui)) (kadd (kmul zr zr) (kmul zi zi))); [ring|]. rewrite Hu. ring.
  - intros t' j Lt' Lj. rewrite Hs by auto. ring.
Qed.

(** *** Delays of the run *)
Lemma run_delay (A : Type) (act : A -> nat -> field K -> A * field K) e b m s0 source w c n t k bf o : separate b ->
  initialize e b = Ok (Some m) -> k < length (mc_nodes e b) ->
  let steps := run k0 kadd kmul ksub act b m (node_source k0 (num_src b) source) n 0 s0 (repeat zero (i_depth m)) in
  nth_error steps t = Some (bf, o) ->
  at_ (read_buffer k0 kadd kmul m bf) w k c =
  past k0 (fun t k => at_ (snd (nth t steps (bf, zero))) w k c) (lag e b (nth k (mc_nodes e b) 0)) t k.
Proof.
  intros Sep EI Lk. cbv zeta.
  rewrite run_all by (destruct (initialize_inv EI) as (_ & _ & _ & _ & _ & _ & ->); lia).
  match goal with |- context [map ?f (seq 0 n)] => set (F := f) end.
  intros H.
  assert (Lt : t < n).
  { assert (HN : nth_error (map F (seq 0 n)) t <> None) by congruence.
    apply nth_error_Some in HN. rewrite map_length, seq_length in HN. exact HN. }
  assert (NF : forall d t', t' < n -> nth t' (map F (seq 0 n)) d = F t').
  { intros d t' L. rewrite nth_indep with (d' := F 0) by (rewrite map_length, seq_length; lia).
    rewrite map_nth, seq_nth by lia. reflexivity. }
  apply nth_error_nth with (d := (bf, zero)) in H. rewrite NF in H by auto. injection H as <- <-.
  rewrite (read_at KR act source s0 EI Sep t w c Lk). unfold past.
  destruct (Nat.ltb_spec t (lag e b (nth k (mc_nodes e b) 0))); auto.
  rewrite NF by lia. reflexivity.
Qed.

End More.
