(** The simulator solves the wave equations. *)
From Coq Require Import QArith Ring Permutation.
From Verif Require Import Base NetModel SimModel SimAlg SimSpec SimNodes.
Set Implicit Arguments.
Unset Strict Implicit.
Local Open Scope nat_scope.

(** Position of [p] in [l]. *)
Fixpoint index (p : nat) (l : list nat) : nat :=
  match l with [] => 0 | x :: r => if x =? p then 0 else S (index p r) end.

Lemma index_nth l : NoDup l -> forall k, k < length l -> index (nth k l 0) l = k.
Proof.
  induction 1 as [|x l N D IH]; cbn; intros k L; [lia|]. destruct k; cbn.
  - rewrite Nat.eqb_refl. reflexivity.
  - destruct (Nat.eqb_spec x (nth k l 0)) as [->|_].
    + destruct N. apply nth_In. lia.
    + rewrite IH; auto. lia.
Qed.

Lemma nth_index l p : In p l -> index p l < length l /\ nth (index p l) l 0 = p.
Proof.
  induction l as [|x l IH]; cbn; [tauto|].
  destruct (Nat.eqb_spec x p) as [->|N]; cbn; intros I; [split; [lia|reflexivity]|].
  destruct I as [|I]; [congruence|]. destruct (IH I). split; [lia|auto].
Qed.

Lemma NoDup_app_l A (l r : list A) : NoDup (l ++ r) -> NoDup l.
Proof.
  induction l as [|x l IH]; cbn; intros H; constructor; inversion H; subst; auto.
  rewrite in_app_iff in *. tauto.
Qed.
Lemma NoDup_app_r A (l r : list A) : NoDup (l ++ r) -> NoDup r.
Proof. induction l as [|x l IH]; cbn; auto. intros H. inversion H; auto. Qed.

(** *** Histories *)
Section Hist.
Variables (K : Type) (k0 k1 : K) (kadd kmul ksub : K -> K -> K) (kopp : K -> K).
Variables (A : Type) (act : A -> nat -> field K -> A * field K).
Variables (b : net K) (m : init K) (src : nat -> field K) (s0 : A) (D : nat).
Hypothesis D1 : 1 <= D.
Notation zero := (zero_field k0).
Notation step := (step k0 kadd kmul ksub act b m).
Notation run := (run k0 kadd kmul ksub act b m src).

Definition window (h : list (field K)) : list (field K) := firstn D (h ++ repeat zero D).

Lemma window_length h : length (window h) = D.
Proof. unfold window. rewrite firstn_length, app_length, repeat_length. lia. Qed.

Lemma window_cons o h : o :: removelast (window h) = window (o :: h).
Proof.
  unfold window. destruct D as [|d]; [lia|]. rewrite removelast_firstn; [reflexivity|].
  rewrite app_length, repeat_length. lia.
Qed.

Lemma window_nth h k : k < D -> nth k (window h) zero = nth k h zero.
Proof.
  intros L. unfold window.
  assert (E : nth k (firstn D (h ++ repeat zero D)) zero = nth k (h ++ repeat zero D) zero).
  { rewrite <- (firstn_skipn D (h ++ repeat zero D)) at 2. rewrite app_nth1; auto.
    rewrite firstn_length, app_length, repeat_length. lia. }
  rewrite E. destruct (Nat.ltb_spec k (length h)).
  - apply app_nth1; auto.
  - rewrite app_nth2, nth_repeat, nth_overflow; auto.
Qed.

(** Action state and all fields so far, latest first, before step [t]. *)
Fixpoint hist (t : nat) : A * list (field K) :=
  match t with
  | 0 => (s0, [])
  | S t' => let '(s, h) := hist t' in
            let r := step s t' (src t') (window h) in (fst (fst r), snd (fst r) :: h)
  end.

Definition out (t : nat) : field K := snd (fst (step (fst (hist t)) t (src t) (window (snd (hist t))))).
Definition state (t : nat) : A := fst (hist t).

Lemma hist_S t : hist (S t) =
  (fst (fst (step (fst (hist t)) t (src t) (window (snd (hist t))))), out t :: snd (hist t)).
Proof. unfold out. cbn [hist]. destruct (hist t). reflexivity. Qed.

Lemma hist_length t : length (snd (hist t)) = t.
Proof. induction t; auto. rewrite hist_S. cbn. congruence. Qed.

Lemma hist_nth t k : k < t -> nth k (snd (hist t)) zero = out (t - 1 - k).
Proof.
  revert k. induction t as [|t IH]; intros k L; [lia|]. rewrite hist_S. cbn [snd].
  destruct k; cbn [nth].
  - f_equal. lia.
  - rewrite IH by lia. f_equal. lia.
Qed.

Lemma step_buffer s t x bf : snd (step s t x bf) = snd (fst (step s t x bf)) :: removelast bf.
Proof.
  unfold SimModel.step.
  destruct (if num_act b =? 0 then _ else _). reflexivity.
Qed.

Lemma run_hist n : forall t, run n t (state t) (window (snd (hist t))) =
  map (fun t => (window (snd (hist t)), out t)) (seq t n).
Proof.
  induction n as [|n IH]; intros t; [reflexivity|]. cbn [SimModel.run seq map].
  pose proof (step_buffer (state t) t (src t) (window (snd (hist t)))) as SB.
  specialize (IH (S t)). unfold state in IH. rewrite hist_S in IH. cbn [fst snd] in IH.
  unfold out in *. unfold state in *.
  destruct (step (fst (hist t)) t (src t) (window (snd (hist t)))) as [[s' o] bf'].
  cbn [fst snd] in *. subst bf'. rewrite window_cons, IH. f_equal.
Qed.

Lemma run_all n : run n 0 s0 (repeat zero D) =
  map (fun t => (window (snd (hist t)), out t)) (seq 0 n).
Proof.
  rewrite <- run_hist. unfold state, window. cbn [hist fst snd app].
  rewrite firstn_all2; auto. rewrite repeat_length. auto.
Qed.

End Hist.

Section Sound.
Variables (K : Type) (k0 k1 : K) (kadd kmul ksub : K -> K -> K) (kopp : K -> K).
Hypothesis KR : ring_theory k0 k1 kadd kmul ksub kopp (@eq K).
Add Ring Kring : KR.
Notation cx := (prod K K).
Notation c0 := (c0 k0).
Notation c1 := (c1 k0 k1).
Notation cadd := (cadd kadd).
Notation cmul := (cmul kadd kmul ksub).
Notation csub := (csub ksub).
Notation copp := (copp kopp).
Notation csum := (lsum c0 cadd).
Notation sum := (lsum k0 kadd).
Let CR : ring_theory c0 c1 cadd cmul csub copp (@eq cx) := cx_ring KR.
Add Ring Cring : CR.

Lemma csum_mul' n (f g : nat -> K) (u v : nat -> K) :
  csum (fun k => cmul (f k, g k) (u k, v k)) (seq 0 n) =
  (ksub (sum (fun k => kmul (f k) (u k)) (seq 0 n)) (sum (fun k => kmul (g k) (v k)) (seq 0 n)),
   kadd (sum (fun k => kmul (f k) (v k)) (seq 0 n)) (sum (fun k => kmul (g k) (u k)) (seq 0 n))).
Proof. rewrite (csum_mul KR). reflexivity. Qed.

Lemma sum_double n f : sum f (seq 0 (2 * n)) = kadd (sum f (seq 0 n)) (sum (fun k => f (n + k)) (seq 0 n)).
Proof.
  replace (2 * n) with (n + n) by lia. rewrite seq_app, (lsum_app KR). f_equal.
  cbn [Nat.add]. generalize n at 1 3. induction n as [|n IH]; intros a; [reflexivity|].
  rewrite !seq_S, !(lsum_app KR), IH. reflexivity.
Qed.

Lemma cmv_at n rA iA x w i c :
  at_ (cmv k0 kadd kmul ksub n rA iA x) w i c =
  csum (fun j => cmul (rA w i j, iA w i j) (at_ x w j c)) (seq 0 n).
Proof. unfold at_. rewrite csum_mul'. reflexivity. Qed.

(** A real block row is a complex row. *)
Lemma block_row n rP iP (u : nat -> K) i : i < n ->
  (sum (fun k => kmul (block_P kopp n rP iP i k) (u k)) (seq 0 (2 * n)),
   sum (fun k => kmul (block_P kopp n rP iP (n + i) k) (u k)) (seq 0 (2 * n))) =
  csum (fun k => cmul (rP i k, iP i k) (u k, u (n + k))) (seq 0 n).
Proof.
  intros Li.
  assert (Lt : forall a c, a < c -> (a <? c) = true) by (intros; now apply Nat.ltb_lt).
  assert (Ge : forall a c, (c + a <? c) = false) by (intros; apply Nat.ltb_ge; lia).
  rewrite !sum_double, csum_mul'. unfold block_P. rewrite (Lt i n Li), Ge. replace (n + i - n) with i by lia. f_equal.
  - rewrite (@lsum_ext K k0 kadd _ (fun k => kmul (if k <? n then _ else _) _) (fun k => kmul (rP i k) (u k))).
    2:{ intros k Ik. apply in_seq in Ik. rewrite Lt by lia. reflexivity. }
    rewrite (@lsum_ext K k0 kadd _ (fun k => kmul (if n + k <? n then _ else _) _)
               (fun k => ksub k0 (kmul (iP i k) (u (n + k))))).
    2:{ intros k _. rewrite Ge. replace (n + k - n) with k by lia. ring. }
    rewrite (lsum_sub KR), (@lsum_0 _ _ _ _ _ _ _ KR _ (fun _ => k0)); auto. ring.
  - rewrite (@lsum_ext K k0 kadd _ (fun k => kmul (if k <? n then _ else _) _) (fun k => kmul (iP i k) (u k))).
    2:{ intros k Ik. apply in_seq in Ik. rewrite Lt by lia. reflexivity. }
    rewrite (@lsum_ext K k0 kadd _ (fun k => kmul (if n + k <? n then _ else _) _)
               (fun k => kmul (rP i k) (u (n + k)))).
    2:{ intros k _. rewrite Ge. replace (n + k - n) with k by lia. ring. }
    ring.
Qed.

Variable solve : nat -> nat -> mat K -> mat K -> option (mat K).
Hypothesis SS : solver_sound k0 kadd kmul solve.

Lemma block_solve n m rP iP B X :
  solve (2 * n) m (block_P kopp n rP iP) (pad_rows k0 n B) = Some X ->
  forall i j, i < n -> j < m ->
  csum (fun k => cmul (rP i k, iP i k) (X k j, X (n + k) j)) (seq 0 n) = (B i j, k0).
Proof.
  intros E i j Li Lj. rewrite <- (@block_row n rP iP (fun k => X k j) i Li).
  rewrite (SS E (i := i)), (SS E (i := n + i)) by lia. unfold pad_rows.
  replace (i <? n) with true by (symmetry; now apply Nat.ltb_lt).
  replace (n + i <? n) with false by (symmetry; apply Nat.ltb_ge; lia). reflexivity.
Qed.

Section Net.
Variable b : net K.

Definition cC (i j : nat) : cx := if b_C b i j then c1 else c0.

Lemma cC_pair i j : cC i j = (C01 k0 k1 b i j, k0).
Proof. unfold cC, C01. destruct (b_C b i j); reflexivity. Qed.

(** The memory-less fields per memory-containing node. *)
Lemma reduced_spec mc ml w R : reduced_C k0 k1 kadd kmul ksub kopp solve b mc ml w = Ok R ->
  exists X : nat -> nat -> cx,
  (forall i j, i < length ml -> j < length mc ->
     X i j = cadd (cC (nth i ml 0) (nth j mc 0))
               (csum (fun l => cmul (csum (fun k => cmul (cC (nth i ml 0) (nth k ml 0))
                                            (b_S b (nth k ml 0) (nth l ml 0) w)) (seq 0 (length ml))) (X l j))
                     (seq 0 (length ml)))) /\
  (forall i j, (fst R i j, snd R i j) =
     cadd (cC (nth i mc 0) (nth j mc 0))
       (csum (fun k => cmul (cC (nth i mc 0) (nth k ml 0))
                (csum (fun l => cmul (b_S b (nth k ml 0) (nth l ml 0) w) (X l j)) (seq 0 (length ml))))
             (seq 0 (length ml)))).
Proof.
  unfold reduced_C. destruct (Nat.eqb_spec (length ml) 0) as [E0|N0].
  { intros E. injection E as <-. exists (fun _ _ => c0). rewrite E0. split; [lia|].
    intros i j. cbn [fst snd seq]. rewrite lsum_nil, cC_pair. unfold sub. cbv [SimAlg.cadd SimAlg.c0]. cbn.
    f_equal; ring. }
  set (n := length ml) in *. set (mn := length mc) in *.
  destruct (solve (2 * n) mn _ _) as [X|] eqn:ES; cbn [of_option bind]; [|discriminate].
  intros E. injection E as <-. cbn [fst snd].
  exists (fun i j => (X i j, X (n + i) j)). split.
  - intros i j Li Lj. pose proof (block_solve ES Li Lj) as H. revert H.
    unfold sub at 1. fold n.
    set (M := fun l => csum (fun k => cmul (cC (nth i ml 0) (nth k ml 0)) (b_S b (nth k ml 0) (nth l ml 0) w)) (seq 0 n)).
    rewrite (@lsum_ext _ c0 cadd _ _ (fun k => csub (if i =? k then (X k j, X (n + k) j) else c0) (cmul (M k) (X k j, X (n + k) j)))).
    + rewrite (lsum_sub CR).
      rewrite (@lsum_ext _ c0 cadd _ _ (fun k => if k =? i then (X k j, X (n + k) j) else c0)).
      2:{ intros; rewrite Nat.eqb_sym; reflexivity. }
      rewrite (lsum_one CR). replace (i <? n) with true by (symmetry; now apply Nat.ltb_lt).
      rewrite cC_pair. intros H.
      change (C01 k0 k1 b (nth i ml 0) (nth j mc 0), k0) with (sub (C01 k0 k1 b) ml mc i j, k0).
      rewrite <- H. fold M. change (csum (fun l => cmul _ (X l j, X (n + l) j)) (seq 0 n)) with (csum (fun x => cmul (M x) (X x j, X (n + x) j)) (seq 0 n)). ring.
    + intros k _. unfold M. rewrite (@lsum_ext _ c0 cadd _ (fun k0' => cmul (cC _ _) _)
        (fun q => cmul (C01 k0 k1 b (nth i ml 0) (nth q ml 0), k0)
           (fst (b_S b (nth q ml 0) (nth k ml 0) w), snd (b_S b (nth q ml 0) (nth k ml 0) w)))).
      2:{ intros q _. rewrite cC_pair. f_equal. apply surjective_pairing. }
      rewrite csum_mul'. unfold mm, sub.
      rewrite (@lsum_0 _ _ _ _ _ _ _ KR _ (fun k3 => kmul k0 (snd _))) by (intros; ring).
      rewrite (@lsum_0 _ _ _ _ _ _ _ KR _ (fun k3 => kmul k0 (fst _))) by (intros; ring).
      destruct (i =? k); cbv [SimAlg.cmul SimAlg.csub SimAlg.c0]; cbn [fst snd]; f_equal; ring.
  - intros i j. rewrite cC_pair.
    rewrite (@lsum_ext _ c0 cadd _ _
      (fun k => cmul (C01 k0 k1 b (nth i mc 0) (nth k ml 0), k0)
         (ksub (mm k0 kadd kmul n (sub (fun i j => fst (b_S b i j w)) ml ml) X k j)
               (mm k0 kadd kmul n (sub (fun i j => snd (b_S b i j w)) ml ml) (fun i j => X (n + i) j) k j),
          kadd (mm k0 kadd kmul n (sub (fun i j => fst (b_S b i j w)) ml ml) (fun i j => X (n + i) j) k j)
               (mm k0 kadd kmul n (sub (fun i j => snd (b_S b i j w)) ml ml) X k j)))).
    2:{ intros k _. rewrite cC_pair. f_equal. unfold mm, sub. rewrite <- csum_mul'.
        apply lsum_ext. intros l _. f_equal. apply surjective_pairing. }
    rewrite csum_mul'. cbv [SimAlg.cadd]. cbn [fst snd].
    rewrite (@lsum_0 _ _ _ _ _ _ _ KR _ (fun k3 => kmul k0 (ksub _ _))) by (intros; ring).
    rewrite (@lsum_0 _ _ _ _ _ _ _ KR _ (fun k3 => kmul k0 (kadd _ _))) by (intros; ring).
    f_equal.
    + match goal with |- kadd ?a ?d = kadd ?d' (ksub ?a' k0) => change a' with a; change d' with d end.
      ring.
    + match goal with |- _ = kadd k0 (kadd ?a' k0) => transitivity a'; [|ring] end.
      unfold mm at 1. apply lsum_ext. intros k _. unfold sub at 1. f_equal. ring.
Qed.

Lemma sum_assoc (n m : list nat) (c : nat -> cx) (s : nat -> nat -> cx) (x : nat -> cx) :
  csum (fun l => cmul (csum (fun k => cmul (c k) (s k l)) n) (x l)) m =
  csum (fun k => cmul (c k) (csum (fun l => cmul (s k l) (x l)) m)) n.
Proof.
  rewrite (@lsum_ext _ c0 cadd _ _ (fun l => csum (fun k => cmul (c k) (cmul (s k l) (x l))) n)).
  2:{ intros l _. rewrite <- (lsum_mul_r CR). apply lsum_ext. intros; ring. }
  rewrite (lsum_swap CR). apply lsum_ext. intros k _. rewrite (lsum_mul CR). reflexivity.
Qed.

Lemma C_sum i (l : list nat) (f : nat -> cx) :
  csum (fun j => if b_C b i j then f j else c0) l = csum (fun j => cmul (cC i j) (f j)) l.
Proof. apply lsum_ext. intros j _. unfold cC. destruct (b_C b i j); ring. Qed.

Definition memb (p : nat) (l : list nat) : bool := existsb (Nat.eqb p) l.
Lemma memb_In p l : memb p l = true <-> In p l.
Proof.
  unfold memb. rewrite existsb_exists. split.
  - intros (x & I & E). apply Nat.eqb_eq in E. subst. auto.
  - intros I. exists p. split; auto. apply Nat.eqb_refl.
Qed.

(** All fields from the ones leaving the memory-containing nodes. *)
Lemma full mc ml w R : Permutation (mc ++ ml) (seq 0 (b_np b)) ->
  reduced_C k0 k1 kadd kmul ksub kopp solve b mc ml w = Ok R ->
  exists F G : (nat -> cx) -> nat -> cx, forall y,
  (forall k, k < length mc -> G y (nth k mc 0) = y k) /\
  (forall k, k < length mc -> F y (nth k mc 0) =
     csum (fun j => cmul (fst R k j, snd R k j) (y j)) (seq 0 (length mc))) /\
  (forall i, i < b_np b -> F y i = csum (fun j => if b_C b i j then G y j else c0) (seq 0 (b_np b))) /\
  (forall i, In i ml -> G y i = csum (fun j => cmul (b_S b i j w) (F y j)) ml).
Proof.
  intros P HR. destruct (reduced_spec HR) as (X & HX & HRX).
  set (n := length ml) in *. set (m := length mc) in *.
  pose (u := fun (y : nat -> cx) l => csum (fun j => cmul (X l j) (y j)) (seq 0 m)).
  exists (fun y p => if memb p mc then csum (fun j => cmul (fst R (index p mc) j, snd R (index p mc) j) (y j)) (seq 0 m)
                     else u y (index p ml)).
  exists (fun y p => if memb p mc then y (index p mc)
                     else csum (fun l => cmul (b_S b p (nth l ml 0) w) (u y l)) (seq 0 n)).
  intros y.
  assert (ND : NoDup (mc ++ ml)).
  { eapply Permutation_NoDup; [apply Permutation_sym, P|apply seq_NoDup]. }
  assert (Nmc : NoDup mc) by (eapply NoDup_app_l; exact ND).
  assert (Nml : NoDup ml) by (eapply NoDup_app_r; exact ND).
  assert (Dis : forall p, In p ml -> memb p mc = false).
  { intros p I. destruct (memb p mc) eqn:E; auto. apply memb_In in E.
    apply in_split in I as (l1 & l2 & ->). apply in_split in E as (l3 & l4 & ->).
    rewrite <- app_assoc in ND. cbn in ND. apply NoDup_remove_2 in ND.
    destruct ND. rewrite !in_app_iff. cbn. auto. }
  assert (Mm : forall k, k < m -> memb (nth k mc 0) mc = true) by (intros; apply memb_In, nth_In; auto).
  assert (Ml : forall k, k < n -> memb (nth k ml 0) mc = false) by (intros; apply Dis, nth_In; auto).
  split; [|split; [|split]].
  - intros k L. rewrite Mm, index_nth; auto.
  - intros k L. rewrite Mm, index_nth; auto.
  - intros i Li. rewrite C_sum, <- (@lsum_perm _ _ _ _ _ _ _ CR _ _ _ _ P), (lsum_app CR).
    rewrite <- (@lsum_nth _ c0 cadd _ 0 _ mc), <- (@lsum_nth _ c0 cadd _ 0 _ ml). fold n m.
    transitivity (cadd (csum (fun k => cmul (cC i (nth k mc 0)) (y k)) (seq 0 m))
       (csum (fun k => cmul (cC i (nth k ml 0))
                (csum (fun l => cmul (b_S b (nth k ml 0) (nth l ml 0) w) (u y l)) (seq 0 n))) (seq 0 n))).
    2:{ f_equal; apply lsum_ext; intros k Ik; apply in_seq in Ik.
        - rewrite Mm, index_nth by (auto; lia). reflexivity.
        - rewrite Ml by lia. reflexivity. }
    assert (T : forall (p : nat) (c : nat -> cx),
      csum (fun j => cmul (cadd (cC p (nth j mc 0)) (csum (fun k => cmul (c k)
               (csum (fun l => cmul (b_S b (nth k ml 0) (nth l ml 0) w) (X l j)) (seq 0 n))) (seq 0 n))) (y j)) (seq 0 m) =
      cadd (csum (fun j => cmul (cC p (nth j mc 0)) (y j)) (seq 0 m))
           (csum (fun k => cmul (c k) (csum (fun l => cmul (b_S b (nth k ml 0) (nth l ml 0) w) (u y l)) (seq 0 n))) (seq 0 n))).
    { intros p c.
      rewrite (@lsum_ext _ c0 cadd _ _ (fun j => cadd (cmul (cC p (nth j mc 0)) (y j))
         (cmul (csum (fun k => cmul (c k)
               (csum (fun l => cmul (b_S b (nth k ml 0) (nth l ml 0) w) (X l j)) (seq 0 n))) (seq 0 n)) (y j)))).
      2:{ intros; ring. }
      rewrite (lsum_add CR). f_equal. rewrite sum_assoc. apply lsum_ext. intros k _. f_equal.
      unfold u. apply sum_assoc. }
    assert (Ii : In i (mc ++ ml)) by (rewrite P; apply in_seq; lia).
    apply in_app_iff in Ii as [Ii|Ii].
    + destruct (nth_index Ii) as [Lk Ek]. replace (memb i mc) with true by (symmetry; now apply memb_In).
      rewrite <- T. apply lsum_ext. intros j _. rewrite HRX, Ek. reflexivity.
    + destruct (nth_index Ii) as [Lk Ek]. rewrite Dis by auto.
      rewrite <- T. unfold u. apply lsum_ext. intros j Ij. apply in_seq in Ij.
      f_equal. rewrite HX by (auto; lia). rewrite Ek. f_equal. apply sum_assoc.
  - intros i Ii. rewrite Dis by auto.
    rewrite <- (@lsum_nth _ c0 cadd _ 0 _ ml). fold n. apply lsum_ext.
    intros k Ik. apply in_seq in Ik. rewrite Ml, index_nth by (auto; lia). reflexivity.
Qed.

Section Fwd.
Variables (A : Type) (act : A -> nat -> field K -> A * field K) (e : env).
Notation initialize := (initialize k0 k1 kadd kmul ksub kopp solve e b).
Notation forward := (forward k0 k1 kadd kmul ksub kopp solve act e b).

Lemma initialize_inv m : initialize = Ok (Some m) ->
  terminated b = true /\ mc_sorted e b <> [] /\ i_mc m = mc_nodes e b
  /\ (forall w i j, i_S m w i j = b_S b (nth i (mc_nodes e b) 0) (nth j (mc_nodes e b) 0) w)
  /\ (forall w, w < e_num_wl e ->
       reduced_C k0 k1 kadd kmul ksub kopp solve b (mc_nodes e b) (ml_nodes e b) w = Ok (i_C m w))
  /\ (forall t i, i_mask m t i = if t =? pred (steps e (b_del b (nth i (mc_nodes e b) 0))) then k1 else k0)
  /\ i_depth m = S (maxl (map (fun i => steps e (b_del b i)) (seq 0 (b_np b)))).
Proof.
  unfold SimModel.initialize.
  destruct (negb (terminated b) || (length (mc_sorted e b) =? 0)) eqn:E1; [discriminate|].
  apply orb_false_iff in E1 as [E1 E2]. apply negb_false_iff in E1. apply Nat.eqb_neq in E2.
  destruct (mapM _ _) as [Cs|] eqn:EC; cbn [bind]; [|discriminate].
  intros E. injection E as <-. cbn.
  split; [exact E1|]. split; [intros E; rewrite E in E2; auto|]. split; [reflexivity|]. split; [reflexivity|].
  split; [|split; reflexivity].
  intros w L. clear - EC L. revert EC. generalize (mc_nodes e b) (ml_nodes e b). intros mc ml.
  assert (G : forall n s Cs, mapM (reduced_C k0 k1 kadd kmul ksub kopp solve b mc ml) (seq s n) = Ok Cs ->
    forall w, w < n -> reduced_C k0 k1 kadd kmul ksub kopp solve b mc ml (s + w) = Ok (nth w Cs (fun _ _ => k0, fun _ _ => k0))).
  { clear. induction n as [|n IH]; intros s Cs E w L; [lia|]. cbn in E.
    destruct (reduced_C _ _ _ _ _ _ _ _ _ _ s) as [R|] eqn:ER; cbn in E; [|discriminate].
    destruct (mapM _ _) as [Cs'|] eqn:EM; cbn in E; [|discriminate]. injection E as <-.
    destruct w; cbn [nth].
    - rewrite Nat.add_0_r. exact ER.
    - rewrite <- (IH _ _ EM) by lia. f_equal. lia. }
  intros EC. exact (G _ _ _ EC w L).
Qed.

Lemma initialize_delay m : initialize = Ok (Some m) ->
  forall i, i_delay m i = if e_freq e then 0%Q else b_del b (nth i (mc_nodes e b) 0).
Proof.
  unfold SimModel.initialize. destruct (negb _ || _); [discriminate|].
  destruct (mapM _ _); cbn [bind]; [|discriminate]. intros E. injection E as <-. reflexivity.
Qed.

Lemma forward_inv s0 source outs : forward s0 source = Ok outs ->
  exists m, initialize = Ok (Some m) /\ buffer_depth e m = Ok (i_depth m)
  /\ (num_det b = 0 -> length (i_mc m) = 1 \/ e_num_t e = 0)
  /\ outs = map (fun t => detect (det_start (length (i_mc m)) (num_det b))
                (out k0 kadd kmul ksub act b m (node_source k0 (num_src b) source) s0 (i_depth m) t))
             (seq 0 (e_num_t e)).
Proof.
  unfold SimModel.forward. destruct initialize as [[m|]|] eqn:EI; cbn [bind]; try discriminate.
  destruct (buffer_depth e m) as [D|] eqn:ED; cbn [bind]; [|discriminate].
  destruct (Nat.eqb_spec (i_depth m) D) as [<-|]; cbn [negb]; [|discriminate].
  destruct ((num_det b =? 0) && negb (length (i_mc m) =? 1) && negb (e_num_t e =? 0)) eqn:EN; [discriminate|].
  intros E. injection E as <-. exists m. split; [reflexivity|]. split; [exact ED|]. split.
  - intros Z. rewrite Z in EN. cbn [Nat.eqb andb] in EN.
    destruct (Nat.eqb_spec (length (i_mc m)) 1); auto. destruct (Nat.eqb_spec (e_num_t e) 0); auto. discriminate.
  - rewrite run_all.
    + rewrite map_map. reflexivity.
    + apply initialize_inv in EI. destruct EI as (_ & _ & _ & _ & _ & _ & ->). lia.
Qed.

Lemma maxl_le l x : In x l -> x <= maxl l.
Proof. induction l as [|y l IH]; cbn [In maxl fold_right]; [tauto|]. fold (maxl l). intros [->|I]; [lia|]. specialize (IH I). lia. Qed.

Section Run.
Variables (m : init K) (source : nat -> field K) (s0 : A).
Hypothesis EI : initialize = Ok (Some m).
Hypothesis Sep : separate b.
Notation mc := (mc_nodes e b).
Notation D := (i_depth m).
Notation nsrc := (node_source k0 (num_src b) source).
Notation out := (out k0 kadd kmul ksub act b m nsrc s0 D).
Notation hist := (hist k0 kadd kmul ksub act b m nsrc s0 D).
Notation win := (window k0 D).

Lemma lag_mc k : k < length mc ->
  lag e b (nth k mc 0) = S (pred (steps e (b_del b (nth k mc 0)))).
Proof.
  intros L. assert (I : In (nth k mc 0) mc) by (apply nth_In; auto).
  apply in_mc in I as [_ I]; auto. unfold lag in *.
  destruct (_ || _); destruct (steps e _); cbn in *; lia.
Qed.

Lemma read_at k t w c : k < length mc ->
  at_ (read_buffer k0 kadd kmul m (win (snd (hist t)))) w k c =
  past k0 (fun t j => at_ (out t) w j c) (lag e b (nth k mc 0)) t k.
Proof.
  intros L. destruct (initialize_inv EI) as (_ & _ & _ & _ & _ & HM & HD).
  assert (D1 : 1 <= D) by (rewrite HD; lia).
  assert (LD : pred (steps e (b_del b (nth k mc 0))) < D).
  { rewrite HD. assert (steps e (b_del b (nth k mc 0)) <= maxl (map (fun i => steps e (b_del b i)) (seq 0 (b_np b)))); [|lia].
    apply maxl_le, in_map_iff. eexists. split; [reflexivity|]. apply in_seq.
    assert (I : In (nth k mc 0) mc) by (apply nth_In; auto). apply in_mc in I; auto. lia. }
  rewrite lag_mc by auto. set (q := pred (steps e (b_del b (nth k mc 0)))) in *.
  unfold read_buffer. rewrite window_length. unfold at_ at 1. cbn [fst snd].
  assert (E : forall f : field K -> K,
    sum (fun t0 => kmul (i_mask m t0 k) (f (nth t0 (win (snd (hist t))) (zero_field k0)))) (seq 0 D)
    = f (nth q (win (snd (hist t))) (zero_field k0))).
  { intros f. rewrite (@lsum_ext _ k0 kadd _ _ (fun t0 => if t0 =? q then f (nth t0 (win (snd (hist t))) (zero_field k0)) else k0)).
    - rewrite (lsum_one KR). apply Nat.ltb_lt in LD. rewrite LD. reflexivity.
    - intros x _. rewrite HM. fold q. destruct (x =? q); ring. }
  rewrite (E (fun x => fst x w k c)), (E (fun x => snd x w k c)), window_nth by auto.
  unfold past. destruct (Nat.ltb_spec t (S q)).
  - rewrite nth_overflow by (rewrite hist_length; lia). reflexivity.
  - rewrite hist_nth by lia. replace (t - 1 - q) with (t - S q) by lia. reflexivity.
  - exact D1.
Qed.

(** What the memory-containing nodes emit before and after the action. *)
Definition scattered (t : nat) : field K :=
  add_field kadd (cmv k0 kadd kmul ksub (length mc) (fun w i j => fst (i_S m w i j)) (fun w i j => snd (i_S m w i j))
                   (read_buffer k0 kadd kmul m (win (snd (hist t))))) (nsrc t).
Definition emitted (t : nat) : field K :=
  if num_act b =? 0 then scattered t else snd (act (fst (hist t)) t (scattered t)).

Lemma scattered_at t w k c : k < length mc ->
  at_ (scattered t) w k c =
  cadd (injected k0 b source w c t (nth k mc 0))
    (csum (fun j => cmul (b_S b (nth k mc 0) (nth j mc 0) w)
       (past k0 (fun t j => at_ (out t) w j c) (lag e b (nth j mc 0)) t j)) (seq 0 (length mc))).
Proof.
  intros L. unfold scattered.
  transitivity (cadd (at_ (nsrc t) w k c) (at_ (cmv k0 kadd kmul ksub (length mc) (fun w i j => fst (i_S m w i j)) (fun w i j => snd (i_S m w i j))
                   (read_buffer k0 kadd kmul m (win (snd (hist t))))) w k c)).
  { unfold at_, add_field, SimAlg.cadd. cbn [fst snd]. f_equal; ring. }
  f_equal.
  - unfold injected, node_source, at_. cbn [fst snd].
    destruct (Nat.ltb_spec k (num_src b)).
    + destruct (src_node' e H) as (_ & F & R). rewrite F, R. reflexivity.
    + rewrite nosrc_node; auto.
  - rewrite cmv_at. apply lsum_ext. intros j Ij. apply in_seq in Ij.
    rewrite read_at by lia. f_equal.
    destruct (initialize_inv EI) as (_ & _ & _ & HS & _). rewrite HS. symmetry. apply surjective_pairing.
Qed.

Lemma out_at t w k c : w < e_num_wl e ->
  at_ (out t) w k c = csum (fun j => cmul (fst (i_C m w) k j, snd (i_C m w) k j) (at_ (emitted t) w j c)) (seq 0 (length mc)).
Proof.
  intros Lw. unfold SimProofs.out, emitted, scattered, step.
  destruct (initialize_inv EI) as (_ & _ & -> & _).
  destruct (num_act b =? 0).
  - cbn [fst snd]. rewrite cmv_at. reflexivity.
  - destruct (act _ _ _) as [s' z]. cbn [fst snd]. rewrite cmv_at. reflexivity.
Qed.

(** The simulated fields are part of a solution of the circuit equations. *)
Lemma run_waves w c : num_act b = 0 -> w < e_num_wl e -> unmixed k0 e b w ->
  exists a o, (forall T, waves k0 kadd kmul ksub e b w T (injected k0 b source w c) a o) /\
  forall t k, k < length mc -> at_ (out t) w k c = a t (nth k mc 0).
Proof.
  intros NA Lw UM. destruct (initialize_inv EI) as (_ & _ & _ & _ & HC & _).
  destruct (full (all_perm e Sep) (HC w Lw)) as (F & G & H).
  exists (fun t => F (fun k => at_ (emitted t) w k c)), (fun t => G (fun k => at_ (emitted t) w k c)).
  assert (HO : forall t k, k < length mc -> at_ (out t) w k c = F (fun k => at_ (emitted t) w k c) (nth k mc 0)).
  { intros t k L. destruct (H (fun k => at_ (emitted t) w k c)) as (_ & H2 & _). rewrite H2, out_at; auto. }
  split; [|exact HO].
  intros T t i _ Li. destruct (H (fun k => at_ (emitted t) w k c)) as (H1 & H2 & H3 & H4).
  split; [apply H3; auto|].
  rewrite <- (lsum_perm CR _ (all_perm e Sep)), (lsum_app CR).
  assert (Ii : In i (mc ++ ml_nodes e b)) by (rewrite (all_perm e Sep); apply in_seq; lia).
  apply in_app_iff in Ii as [Ii|Ii].
  - destruct (nth_index Ii) as [Lk Ek]. set (k := index i mc) in *. clearbody k. subst i.
    rewrite H1 by auto. unfold emitted at 1. rewrite NA, Nat.eqb_refl, scattered_at by auto. f_equal.
    rewrite (lsum_0 CR _ (ml_nodes e b)).
    + rewrite <- (lsum_nth _ _ 0 _ mc).
      transitivity (csum (fun j => cmul (b_S b (nth k mc 0) (nth j mc 0) w)
         (past k0 (fun t0 => F (fun k => at_ (emitted t0) w k c)) (lag e b (nth j mc 0)) t (nth j mc 0))) (seq 0 (length mc))).
      2:{ ring. }
      apply lsum_ext. intros j Ij. apply in_seq in Ij. f_equal. unfold past.
      destruct (t <? _); auto. apply HO. lia.
    + intros j Ij. rewrite UM; auto; [ring| |].
      * apply in_ml in Ij. lia.
      * apply in_ml in Ij. apply in_mc in Ii; auto. destruct Ii as [_ Ii]. apply Nat.eqb_neq in Ii. rewrite Ii.
        destruct Ij as [_ ->]. discriminate.
  - rewrite H4 by auto. apply in_ml in Ii as [_ Ii].
    assert (NS : injected k0 b source w c t i = c0).
    { unfold injected. unfold lag in Ii. destruct (b_src b i); auto. cbn [orb] in Ii. lia. }
    rewrite NS. rewrite (lsum_0 CR _ mc).
    + transitivity (csum (fun j => cmul (b_S b i j w)
         (past k0 (fun t0 => F (fun k => at_ (emitted t0) w k c)) (lag e b j) t j)) (ml_nodes e b)).
      2:{ ring. }
      apply lsum_ext. intros j Ij. f_equal. apply in_ml in Ij as [_ ->]. unfold past.
      cbn. rewrite Nat.sub_0_r. reflexivity.
    + intros j Ij. apply in_mc in Ij as [Lj Ij]; auto. rewrite UM; auto; [ring|].
      rewrite Ii. apply Nat.eqb_neq in Ij. rewrite Ij. discriminate.
Qed.

End Run.

Lemma det_read (m : init K) s0 source outs p : initialize = Ok (Some m) -> separate b ->
  outs = map (fun t => detect (det_start (length (i_mc m)) (num_det b))
                (out k0 kadd kmul ksub act b m (node_source k0 (num_src b) source) s0 (i_depth m) t))
             (seq 0 (e_num_t e)) ->
  forall t w c, t < e_num_t e -> p < b_np b -> b_det b p = true ->
  exists k, k < length (mc_nodes e b) /\ nth k (mc_nodes e b) 0 = p /\
  at_ (nth t outs (zero_field k0)) w (rank (b_det b) p) c =
  at_ (out k0 kadd kmul ksub act b m (node_source k0 (num_src b) source) s0 (i_depth m) t) w k c.
Proof.
  intros EI Sep -> t w c Lt Lp Dp. destruct (initialize_inv EI) as (_ & _ & Hmc & _).
  destruct (det_node e Lp Dp) as [R N].
  pose proof (mc_len_sum e b) as HL.
  exists (length (mc_nodes e b) - num_det b + rank (b_det b) p). split; [lia|]. split; [exact N|].
  rewrite nth_indep with (d' := detect (det_start (length (i_mc m)) (num_det b))
     (out k0 kadd kmul ksub act b m (node_source k0 (num_src b) source) s0 (i_depth m) 0))
     by (rewrite map_length, seq_length; auto).
  rewrite (map_nth (fun t => detect _ (out _ _ _ _ _ _ _ _ _ _ t))), seq_nth by auto.
  rewrite Hmc. unfold det_start. destruct (Nat.eqb_spec (num_det b) 0); [lia|]. reflexivity.
Qed.

Theorem forward_sound s0 source outs w c :
  separate b -> num_act b = 0 -> w < e_num_wl e -> unmixed k0 e b w ->
  forward s0 source = Ok outs ->
  exists a o, waves k0 kadd kmul ksub e b w (e_num_t e) (injected k0 b source w c) a o
           /\ reads k0 b outs w c (e_num_t e) a.
Proof.
  intros Sep NA Lw UM HF. destruct (forward_inv HF) as (m & EI & _ & _ & EO).
  destruct (run_waves source s0 EI Sep c NA Lw UM) as (a & o & HW & HO).
  exists a, o. split; [apply HW|]. split.
  - rewrite EO, map_length, seq_length. reflexivity.
  - intros t p Lt Lp Dp. destruct (det_read EI Sep EO w c Lt Lp Dp) as (k & Lk & <- & ->). auto.
Qed.

End Fwd.

(** *** Uniqueness *)
Theorem waves_unique e w T src a o a' o' : no_resonance k0 kadd kmul ksub e b w ->
  waves k0 kadd kmul ksub e b w T src a o -> waves k0 kadd kmul ksub e b w T src a' o' ->
  forall t i, t < T -> i < b_np b -> a t i = a' t i /\ o t i = o' t i.
Proof.
  intros NR H H'. intros t. induction t as [t IH] using lt_wf_ind. intros i Lt Li.
  assert (Pst : forall j, j < b_np b -> lag e b j <> 0 -> past k0 a (lag e b j) t j = past k0 a' (lag e b j) t j).
  { intros j Lj N. unfold past. destruct (Nat.ltb_spec t (lag e b j)); auto. apply IH; lia. }
  assert (DO : forall j, j < b_np b -> csub (o t j) (o' t j) =
    csum (fun k => if lag e b k =? 0 then cmul (b_S b j k w) (csub (a t k) (a' t k)) else c0) (seq 0 (b_np b))).
  { intros j Lj. destruct (H t j Lt Lj) as [_ ->]. destruct (H' t j Lt Lj) as [_ ->].
    transitivity (csub (csum (fun j0 => cmul (b_S b j j0 w) (past k0 a (lag e b j0) t j0)) (seq 0 (b_np b)))
                       (csum (fun j0 => cmul (b_S b j j0 w) (past k0 a' (lag e b j0) t j0)) (seq 0 (b_np b)))); [ring|].
    rewrite <- (lsum_sub CR). apply lsum_ext. intros k Ik. apply in_seq in Ik.
    destruct (Nat.eqb_spec (lag e b k) 0) as [E|N].
    - rewrite E. unfold past. cbn. rewrite Nat.sub_0_r. ring.
    - rewrite Pst by (auto; lia). ring. }
  assert (DA : forall j, j < b_np b -> csub (a t j) (a' t j) =
    csum (fun k => if b_C b j k then csub (o t k) (o' t k) else c0) (seq 0 (b_np b))).
  { intros j Lj. destruct (H t j Lt Lj) as [-> _]. destruct (H' t j Lt Lj) as [-> _].
    rewrite <- (lsum_sub CR). apply lsum_ext. intros k _. destruct (b_C b j k); ring. }
  assert (Z : forall j, j < b_np b -> lag e b j = 0 -> csub (a t j) (a' t j) = c0).
  { apply NR. intros j Lj _. rewrite DA by auto. apply lsum_ext. intros k Ik. apply in_seq in Ik.
    destruct (b_C b j k); auto. apply DO. lia. }
  assert (DO0 : forall j, j < b_np b -> o t j = o' t j).
  { intros j Lj. assert (E : csub (o t j) (o' t j) = c0).
    { rewrite DO by auto. apply (lsum_0 CR). intros k Ik. apply in_seq in Ik.
      destruct (Nat.eqb_spec (lag e b k) 0); auto. rewrite Z by (auto; lia). ring. }
    transitivity (cadd (csub (o t j) (o' t j)) (o' t j)); [ring|]. rewrite E. ring. }
  split; [|apply DO0; auto].
  transitivity (cadd (csub (a t i) (a' t i)) (a' t i)); [ring|].
  rewrite DA by auto. rewrite (lsum_0 CR); [ring|].
  intros k Ik. apply in_seq in Ik. rewrite DO0 by lia. destruct (b_C b i k); ring.
Qed.

End Net.
End Sound.
