(** More about [lfilter]: filters whose two coefficient lists need not have the same length, and detectors. *)
From Coq Require Import Ring Lia QArith Reals Lra Qreals.
From Verif Require Import Base SimModel SimAlg NNModel FilterModel FilterSpec FilterProofs.
Set Implicit Arguments.
Unset Strict Implicit.
Local Open Scope nat_scope.

Section P.
Variables (K : Type) (k0 k1 : K) (kadd kmul ksub : K -> K -> K) (kopp : K -> K) (kdiv : K -> K -> K) (is0 : K -> bool).
Hypothesis KR : ring_theory k0 k1 kadd kmul ksub kopp (@eq K).
Add Ring Kring : KR.
Hypothesis DIV : forall x d, is0 d = false -> kmul d (kdiv x d) = x.
Hypothesis DIV' : forall x d, is0 d = false -> kdiv (kmul d x) d = x.
Notation "l @ k" := (nth k l k0) (at level 20).
Notation lfilter := (lfilter k0 kadd kmul ksub kdiv is0).
Notation filter_step := (filter_step k0 kadd kmul ksub).
Notation mulsum := (mulsum k0 kadd kmul).
Notation solves := (solves k0 kadd kmul ksub).
Notation comb := (combine_lin kadd kmul).

Lemma lfilter_inv (b a x y : list K) : length a = length b -> b <> [] -> lfilter b a x = Ok y ->
  is0 (a @ 0) = false /\ 1 <= length b <= length x /\ solves (rev b) a x y.
Proof.
  intros Lab Nb E. assert (Lb : 1 <= length b) by (destruct b; [congruence|cbn; lia]).
  assert (H0 : is0 (a @ 0) = false).
  { unfold FilterModel.lfilter in E. destruct a as [|a0 a]; [cbn in Lab; lia|]. cbn [hd_error of_option bind nth] in *.
    destruct (is0 a0); [discriminate|reflexivity]. }
  assert (Lx : 1 <= length x).
  { destruct x; [|cbn; lia]. unfold FilterModel.lfilter in E. destruct a as [|a0 a]; [cbn in Lab; lia|].
    cbn [hd_error of_option bind nth] in *. destruct (is0 a0); discriminate. }
  destruct (Nat.ltb_spec (length x) (length b)) as [S|S].
  - rewrite (lfilter_short kdiv KR) in E by (auto; lia). discriminate.
  - destruct (lfilter_ok KR DIV DIV' Lab (x := x) ltac:(lia) H0) as (y' & E' & Sy). rewrite E in E'. injection E' as ->. auto.
Qed.

(** *** Linearity, whatever the lengths *)
Lemma comb_cons u v a c x y : comb u v (a :: x) (c :: y) = kadd (kmul u a) (kmul v c) :: comb u v x y. Proof. reflexivity. Qed.
Lemma comb_firstn u v n : forall x y, firstn n (comb u v x y) = comb u v (firstn n x) (firstn n y).
Proof.
  induction n as [|n IH]; intros [|a x] [|c y]; try reflexivity.
  cbn [firstn]. rewrite !comb_cons. cbn [firstn]. f_equal. apply IH.
Qed.
Lemma comb_skipn u v n : forall x y, length x = length y -> skipn n (comb u v x y) = comb u v (skipn n x) (skipn n y).
Proof.
  induction n as [|n IH]; intros [|a x] [|c y] L; try reflexivity; try discriminate.
  cbn [skipn]. rewrite !comb_cons. cbn [skipn]. apply IH. cbn in L. lia.
Qed.
Lemma comb_cut u v i j x y : length x = length y -> cut i j (comb u v x y) = comb u v (cut i j x) (cut i j y).
Proof. intros L. unfold cut. rewrite comb_skipn, comb_firstn; auto. Qed.

Lemma dot_comb p q u : forall v w, length v = length w ->
  dot k0 kadd kmul u (comb p q v w) = kadd (kmul p (dot k0 kadd kmul u v)) (kmul q (dot k0 kadd kmul u w)).
Proof.
  induction u as [|a u IH]; intros [|c v] [|d w] L; try discriminate; cbn [dot]; try (cbn; ring).
  rewrite comb_cons. cbn [dot]. rewrite IH by (cbn in L; lia). ring.
Qed.
Lemma total_comb p q : forall v w, length v = length w ->
  total k0 kadd (comb p q v w) = kadd (kmul p (total k0 kadd v)) (kmul q (total k0 kadd w)).
Proof.
  intros v. induction v as [|c v IH]; intros [|d w] L; try discriminate; [cbn; ring|].
  rewrite comb_cons. unfold total in *. cbn [fold_right]. rewrite IH by (cbn in L; lia). ring.
Qed.
Lemma mulsum_comb p q u v w s t : length v = length w -> mulsum u v = Ok s -> mulsum u w = Ok t ->
  mulsum u (comb p q v w) = Ok (kadd (kmul p s) (kmul q t)).
Proof.
  intros L. unfold FilterModel.mulsum. rewrite (comb_length kadd kmul p q L), <- L.
  destruct (length u =? length v).
  - intros [= <-] [= <-]. rewrite dot_comb by auto. reflexivity.
  - destruct u as [|a [|a' u]].
    + destruct v as [|c [|c' v]], w as [|d [|d' w]]; try discriminate.
      intros [= <-] [= <-]. cbn. f_equal. ring.
    + intros [= <-] [= <-]. rewrite total_comb by auto. f_equal. ring.
    + destruct v as [|c [|c' v]], w as [|d [|d' w]]; try discriminate.
      intros [= <-] [= <-]. cbn. unfold total. f_equal. ring.
Qed.

Lemma step_inv b a x y n y' : filter_step b a x y n = Ok y' -> exists s r, y' = y ++ [ksub s r] /\ n < length x /\
  if n <? length b then mulsum (skipn (length b - 1 - n) b) (firstn (n + 1) x) = Ok s /\ mulsum (skipn (length a - n) a) (firstn n y) = Ok r
  else mulsum b (cut (n - length b + 1) (n + 1) x) = Ok s /\ mulsum a (cut (n - length b + 1) n y) = Ok r.
Proof.
  unfold FilterModel.filter_step. cbv zeta. destruct (Nat.leb_spec (length x) n); [discriminate|]. destruct (n <? length b); intros E.
  - destruct (mulsum (skipn (length b - 1 - n) b) (firstn (n + 1) x)) as [s|]; [|discriminate].
    destruct (mulsum (skipn (length a - n) a) (firstn n y)) as [r|]; [|discriminate].
    cbn [bind] in E. injection E as <-. eauto 6.
  - destruct (mulsum b (cut (n - length b + 1) (n + 1) x)) as [s|]; [|discriminate].
    destruct (mulsum a (cut (n - length b + 1) n y)) as [r|]; [|discriminate].
    cbn [bind] in E. injection E as <-. eauto 6.
Qed.

Lemma step_comb p q b a x x' y y' n z z' : length x = length x' -> length y = length y' ->
  filter_step b a x y n = Ok z -> filter_step b a x' y' n = Ok z' ->
  filter_step b a (comb p q x x') (comb p q y y') n = Ok (comb p q z z') /\ length z = length z'.
Proof.
  intros Lx Ly E E'. destruct (step_inv E) as (s & r & -> & L & H), (step_inv E') as (s' & r' & -> & _ & H').
  split; [|rewrite !app_length; cbn; lia].
  unfold FilterModel.filter_step. cbv zeta. rewrite (comb_length kadd kmul p q Lx).
  destruct (Nat.leb_spec (length x) n); [lia|].
  assert (A : comb p q (y ++ [ksub s r]) (y' ++ [ksub s' r']) = comb p q y y' ++ [ksub (kadd (kmul p s) (kmul q s')) (kadd (kmul p r) (kmul q r'))]).
  { clear - Ly KR. revert y' Ly. induction y as [|c y IH]; intros [|d y'] L; try discriminate.
    - cbn. f_equal. ring.
    - cbn [app]. rewrite !comb_cons. cbn [app]. f_equal. apply IH. cbn in L. lia. }
  rewrite A. destruct (n <? length b); destruct H as [Hs Hr], H' as [Hs' Hr'].
  - rewrite (comb_firstn p q (n + 1)), (comb_firstn p q n).
    erewrite mulsum_comb; [|rewrite !firstn_length; lia|exact Hs|exact Hs'].
    cbn [bind]. erewrite mulsum_comb; [reflexivity|rewrite !firstn_length; lia|exact Hr|exact Hr'].
  - rewrite !comb_cut by auto. erewrite mulsum_comb; [|unfold cut; rewrite !firstn_length, !skipn_length; lia|exact Hs|exact Hs'].
    cbn [bind]. erewrite mulsum_comb; [reflexivity|unfold cut; rewrite !firstn_length, !skipn_length; lia|exact Hr|exact Hr'].
Qed.

Theorem lfilter_linear p q b a x x' y y' : length x = length x' -> lfilter b a x = Ok y -> lfilter b a x' = Ok y' ->
  lfilter b a (comb p q x x') = Ok (comb p q y y').
Proof.
  intros Lx. unfold FilterModel.lfilter. destruct (hd_error a) as [a0|]; [|discriminate]. cbn [of_option bind].
  destruct (is0 a0); [discriminate|]. destruct x as [|x0 x], x' as [|x0' x']; try discriminate. cbn [hd_error of_option bind].
  rewrite comb_cons. cbn [hd_error of_option bind]. rewrite <- comb_cons.
  destruct (hd_error (rev (map (fun z => kdiv z a0) b))) as [bl|]; [|discriminate]. cbn [of_option bind].
  rewrite (comb_length kadd kmul p q Lx), <- Lx.
  set (b' := map _ b). set (a' := map _ (rev (tl a))). set (X := x0 :: x) in *. set (X' := x0' :: x') in *.
  replace (kmul bl (kadd (kmul p x0) (kmul q x0'))) with (kadd (kmul p (kmul bl x0)) (kmul q (kmul bl x0'))) by ring.
  change [kadd (kmul p (kmul bl x0)) (kmul q (kmul bl x0'))] with (comb p q [kmul bl x0] [kmul bl x0']).
  assert (LL : length [kmul bl x0] = length [kmul bl x0']) by reflexivity. revert LL.
  generalize [kmul bl x0] [kmul bl x0']. generalize (seq 1 (Nat.max (length b) (length X) - 1)).
  clearbody X X'. clear x0 x x0' x' bl. intros l. induction l as [|n l IH]; intros v w L E E'.
  - cbn [foldM] in *. congruence.
  - cbn [foldM] in *. destruct (filter_step b' a' X v n) as [z|] eqn:Ez; [|discriminate]. destruct (filter_step b' a' X' w n) as [z'|] eqn:Ez'; [|discriminate].
    destruct (step_comb p q Lx L Ez Ez') as [Es Lz]. rewrite Es. cbn [bind] in *. apply IH; auto.
Qed.

(** *** Causality, whatever the lengths *)
Lemma loop_prefix b a x l y y' : foldM (filter_step b a x) y l = Ok y' -> exists z, y' = y ++ z /\ length z = length l.
Proof.
  revert y. induction l as [|n l IH]; intros y E; cbn [foldM] in E.
  - exists []. injection E as <-. rewrite app_nil_r. auto.
  - destruct (filter_step b a x y n) as [z|] eqn:Ez; [|discriminate]. cbn [bind] in E.
    destruct (step_inv Ez) as (s & r & -> & _). destruct (IH _ E) as (z & -> & L). rewrite <- app_assoc. eexists. split; [reflexivity|].
    cbn. lia.
Qed.
Lemma firstn_firstn_le {A} (l : list A) i j : i <= j -> firstn i (firstn j l) = firstn i l.
Proof. intros L. rewrite firstn_firstn. f_equal. lia. Qed.
Lemma cut_firstn {A} (l : list A) i j N : j <= N -> cut i j (firstn N l) = cut i j l.
Proof.
  intros L. unfold cut. rewrite skipn_firstn_comm, firstn_firstn. f_equal. lia.
Qed.
Lemma step_causal b a x x' y n N : n < N -> N <= length x -> N <= length x' -> firstn N x = firstn N x' ->
  filter_step b a x y n = filter_step b a x' y n.
Proof.
  intros L Lx Lx' E. unfold FilterModel.filter_step. cbv zeta.
  destruct (Nat.leb_spec (length x) n), (Nat.leb_spec (length x') n); try lia.
  rewrite <- (@firstn_firstn_le _ x (n + 1) N), <- (@firstn_firstn_le _ x' (n + 1) N) by lia.
  rewrite <- (@cut_firstn _ x _ (n + 1) N), <- (@cut_firstn _ x' _ (n + 1) N) by lia. rewrite E. reflexivity.
Qed.
Theorem lfilter_causal b a x x' y y' N : lfilter b a x = Ok y -> lfilter b a x' = Ok y' ->
  N <= length x -> N <= length x' -> firstn N x = firstn N x' -> firstn N y = firstn N y'.
Proof.
  destruct N as [|N]; [reflexivity|].
  unfold FilterModel.lfilter. destruct (hd_error a) as [a0|]; [|discriminate]. cbn [of_option bind].
  destruct (is0 a0); [discriminate|]. destruct x as [|x0 x], x' as [|x0' x']; try discriminate. cbn [hd_error of_option bind].
  destruct (hd_error (rev (map (fun z => kdiv z a0) b))) as [bl|]; [|discriminate]. cbn [of_option bind].
  intros E E' Lx Lx' Ef. assert (x0 = x0') as <- by (cbn in Ef; congruence).
  set (b' := map _ b) in *. set (a' := map _ (rev (tl a))) in *. set (X := x0 :: x) in *. set (X' := x0 :: x') in *.
  assert (FA : forall A B (f : A -> B -> res A) l r s, foldM f s (l ++ r) = bind (foldM f s l) (fun s' => foldM f s' r)).
  { clear. intros A B f l r. induction l as [|z l IH]; intros s; [reflexivity|]. cbn. destruct (f s z); cbn; auto. }
  replace (Nat.max (length b) (length X) - 1) with (N + (Nat.max (length b) (length X) - 1 - N)) in E by lia.
  replace (Nat.max (length b) (length X') - 1) with (N + (Nat.max (length b) (length X') - 1 - N)) in E' by lia.
  rewrite seq_app, FA in E, E'.
  assert (SE : foldM (filter_step b' a' X') [kmul bl x0] (seq 1 N) = foldM (filter_step b' a' X) [kmul bl x0] (seq 1 N)).
  { assert (G : forall l, (forall n, In n l -> n < S N) -> forall v, foldM (filter_step b' a' X') v l = foldM (filter_step b' a' X) v l).
    { intros l. induction l as [|n l IH]; intros Hl v; [reflexivity|]. cbn [foldM].
      rewrite (@step_causal b' a' X X' v n (S N)); auto. 2:{ apply Hl. left; auto. }
      destruct (filter_step b' a' X' v n); [|reflexivity]. cbn [bind]. apply IH. intros k Ik. apply Hl. right; auto. }
    apply G. intros n In_. apply in_seq in In_. lia. }
  rewrite SE in E'. destruct (foldM (filter_step b' a' X) [kmul bl x0] (seq 1 N)) as [v|] eqn:Ev; [|discriminate]. cbn [bind] in E, E'.
  destruct (loop_prefix Ev) as (z & -> & Lz). rewrite seq_length in Lz.
  destruct (loop_prefix E) as (w & -> & _), (loop_prefix E') as (w' & -> & _).
  rewrite !firstn_app. replace (S N - length ([kmul bl x0] ++ z)) with 0 by (rewrite app_length; cbn; lia). reflexivity.
Qed.

(** *** Time invariance *)
Theorem lfilter_delay b a d x y : length a = length b -> b <> [] -> lfilter b a x = Ok y ->
  lfilter b a (repeat k0 d ++ x) = Ok (repeat k0 d ++ y).
Proof.
  intros Lab Nb E. destruct (lfilter_inv Lab Nb E) as (H0 & L & Sy).
  destruct (lfilter_ok KR DIV DIV' Lab (x := repeat k0 d ++ x) ltac:(rewrite app_length; lia) H0) as (y' & E' & Sy').
  rewrite E'. f_equal. eapply (solves_unique KR DIV' (a := a)); eauto using (solves_delay KR).
Qed.

(** *** What a non-symmetric numerator does *)
Theorem symmetric_needed b a n : length a = length b -> 1 <= length b <= n -> is0 (a @ 0) = false ->
  (forall x y, length x = n -> lfilter b a x = Ok y -> solves b a x y) -> rev b = b.
Proof.
  intros Lab Lb H0 H. set (x := k1 :: repeat k0 (n - 1)).
  assert (Lx : length x = n) by (cbn; rewrite repeat_length; lia).
  destruct (lfilter_ok KR DIV DIV' Lab (x := x) ltac:(lia) H0) as (y & E & Sy). pose proof (H x y Lx E) as Sy'.
  apply (nth_ext _ _ k0 k0); [apply rev_length|]. rewrite rev_length. intros k Lk.
  assert (I : forall c, length c = length b -> convolved k0 kadd kmul c x k = c @ k).
  { intros c Lc. unfold convolved. replace (length c) with (k + (1 + (length c - k - 1))) by lia.
    rewrite seq_app, (lsum_app KR), seq_app, (lsum_app KR), (lsum_0 KR _ (seq 0 k)), (lsum_0 KR _ (seq (0 + k + 1) _)).
    - cbn [seq]. rewrite lsum_cons. cbn [lsum fold_right map]. rewrite Nat.add_0_l, Nat.leb_refl, Nat.sub_diag.
      cbn [nth x]. unfold x. cbn [nth]. unfold lsum. cbn. ring.
    - intros j Ij. apply in_seq in Ij. destruct (Nat.leb_spec j k); [lia|reflexivity].
    - intros j Ij. apply in_seq in Ij. destruct (Nat.leb_spec j k); [|reflexivity]. unfold x.
      replace (k - j) with (S (k - j - 1)) by lia. cbn [nth]. rewrite nth_repeat. ring. }
  destruct Sy as [Ly Sy], Sy' as [_ Sy']. specialize (Sy k ltac:(lia)). specialize (Sy' k ltac:(lia)).
  rewrite Sy in Sy'. rewrite !I in Sy' by (rewrite ?rev_length; auto).
  match goal with _ : ksub ?u ?w = ksub ?v ?w |- _ => transitivity (kadd (ksub u w) w); [ring|]; rewrite Sy'; ring end.
Qed.

(** Without denominator coefficients the filter fails from order 3 on. *)
Theorem fir_fails b a0 x : 3 <= length b -> 3 <= length x -> is0 a0 = false -> lfilter b [a0] x = Err RuntimeError.
Proof.
  intros Lb Lx H0. unfold FilterModel.lfilter. cbn [hd_error of_option bind tl rev map]. rewrite H0.
  destruct x as [|x0 x]; [cbn in Lx; lia|]. cbn [hd_error of_option bind].
  set (b' := map (fun z => kdiv z a0) b). assert (Lb' : length b' = length b) by apply map_length.
  destruct (rev b') as [|bl br] eqn:EB.
  { apply (f_equal (@length K)) in EB. rewrite rev_length in EB. cbn in EB. lia. }
  cbn [hd_error of_option bind]. set (X := x0 :: x) in *.
  replace (Nat.max (length b) (length X) - 1) with (S (S (Nat.max (length b) (length X) - 3))) by lia.
  cbn [seq foldM].
  assert (S1 : exists v, filter_step b' [] X [kmul bl x0] 1 = Ok [kmul bl x0; v]).
  { unfold FilterModel.filter_step. cbv zeta. rewrite Lb'. destruct (Nat.leb_spec (length X) 1); [lia|].
    destruct (Nat.ltb_spec 1 (length b)); [|lia]. unfold FilterModel.mulsum at 1. rewrite skipn_length, firstn_length, Lb'.
    destruct (Nat.eqb_spec (length b - (length b - 1 - 1)) (Nat.min (1 + 1) (length X))); [|lia]. cbn [bind].
    eexists. reflexivity. }
  destruct S1 as (v & S1). rewrite S1. cbn [bind].
  assert (S2 : filter_step b' [] X [kmul bl x0; v] 2 = Err RuntimeError).
  { unfold FilterModel.filter_step. cbv zeta. rewrite Lb'. destruct (Nat.leb_spec (length X) 2); [lia|].
    destruct (Nat.ltb_spec 2 (length b)); [|lia]. unfold FilterModel.mulsum at 1. rewrite skipn_length, firstn_length, Lb'.
    destruct (Nat.eqb_spec (length b - (length b - 1 - 2)) (Nat.min (2 + 1) (length X))); [|lia]. reflexivity. }
  rewrite S2. reflexivity.
Qed.
End P.
