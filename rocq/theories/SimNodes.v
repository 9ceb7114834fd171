(** The order of the memory-containing nodes. *)
From Coq Require Import QArith Permutation.
From Verif Require Import Base NetModel SimModel SimAlg SimSpec.
Set Implicit Arguments.
Unset Strict Implicit.
Local Open Scope nat_scope.

Lemma map_nth_seq A (d : A) l : map (fun k => nth k l d) (seq 0 (length l)) = l.
Proof.
  induction l as [|x l IH]; cbn; auto. f_equal.
  rewrite <- seq_shift, map_map. exact IH.
Qed.

Lemma map_filter A B (g : A -> B) (p : B -> bool) l :
  map g (filter (fun k => p (g k)) l) = filter p (map g l).
Proof. induction l as [|x l IH]; cbn; auto. destruct (p (g x)); cbn; congruence. Qed.

Lemma where_nth f l : map (fun k => nth k l 0) (where_at f l) = filter f l.
Proof.
  unfold where_at. rewrite (map_filter (fun k => nth k l 0) f), map_nth_seq. reflexivity.
Qed.

Lemma filter_ext_in' A (p q : A -> bool) l :
  (forall x, In x l -> p x = q x) -> filter p l = filter q l.
Proof. apply filter_ext_in. Qed.

Lemma filter_filter A (p q : A -> bool) l : filter p (filter q l) = filter (fun x => q x && p x) l.
Proof. induction l as [|x l IH]; cbn; auto. destruct (q x); cbn; rewrite IH; auto. Qed.

Lemma rank_lt f i n : i < n -> f i = true -> rank f i < length (filter f (seq 0 n)).
Proof.
  intros L F. replace n with (i + S (n - S i)) by lia.
  rewrite seq_app, filter_app, app_length. cbn. rewrite F. cbn. unfold rank. lia.
Qed.

Lemma rank_nth f i n d : i < n -> f i = true -> nth (rank f i) (filter f (seq 0 n)) d = i.
Proof.
  intros L F. replace n with (i + S (n - S i)) by lia.
  rewrite seq_app, filter_app, app_nth2; unfold rank; [|lia].
  rewrite Nat.sub_diag. cbn. rewrite F. reflexivity.
Qed.

Lemma nth_rank f k n d : k < length (filter f (seq 0 n)) ->
  exists i, i < n /\ f i = true /\ rank f i = k /\ nth k (filter f (seq 0 n)) d = i.
Proof.
  intros L. exists (nth k (filter f (seq 0 n)) d).
  pose proof (nth_In _ d L) as I. apply filter_In in I as [I F]. apply in_seq in I.
  repeat split; auto; try lia.
  assert (N : NoDup (filter f (seq 0 n))) by (apply NoDup_filter, seq_NoDup).
  eapply (proj1 (NoDup_nth _ d) N); auto.
  - apply rank_lt; auto. lia.
  - apply rank_nth; auto. lia.
Qed.

Section Nodes.
Variables (K : Type) (e : env) (b : net K).

Lemma mc_lag i : is_mc e b i = negb (lag e b i =? 0).
Proof.
  unfold is_mc, lag. destruct (b_src b i || b_det b i || b_act b i); cbn.
  - destruct (steps e (b_del b i)); auto.
  - destruct (steps e (b_del b i)); auto.
Qed.

Definition other (i : nat) : bool := is_mc e b i && negb (b_src b i || b_act b i || b_det b i).

Lemma mc_eq : mc_nodes e b =
  filter (b_src b) (seq 0 (b_np b)) ++ filter (b_act b) (seq 0 (b_np b))
  ++ filter other (seq 0 (b_np b)) ++ filter (b_det b) (seq 0 (b_np b)).
Proof.
  unfold mc_nodes, new_order. rewrite !map_app, !where_nth. unfold mc_sorted.
  rewrite !filter_filter.
  assert (E : forall f, (forall i, f i = true -> is_mc e b i = true) ->
    filter (fun x => is_mc e b x && f x) (seq 0 (b_np b)) = filter f (seq 0 (b_np b))).
  { intros f H. apply filter_ext. intros i. destruct (f i) eqn:F.
    - rewrite H; auto.
    - apply andb_false_r. }
  rewrite (E (b_src b)), (E (b_act b)), (E (b_det b)); auto;
    intros i; unfold is_mc; intros ->; rewrite ?orb_true_r; reflexivity.
Qed.

Lemma mc_perm : separate b -> Permutation (mc_nodes e b) (filter (is_mc e b) (seq 0 (b_np b))).
Proof.
  intros Sep. rewrite mc_eq.
  apply NoDup_Permutation.
  - assert (N : forall f, NoDup (filter f (seq 0 (b_np b)))) by (intros; apply NoDup_filter, seq_NoDup).
    assert (NA : forall l r : list nat, NoDup l -> NoDup r -> (forall x, In x l -> ~ In x r) -> NoDup (l ++ r)).
    { induction l as [|x l IH]; cbn; auto. intros r Nl Nr Hd. inversion Nl; subst. constructor.
      - rewrite in_app_iff. intros [|I]; auto. exact (Hd x (or_introl eq_refl) I).
      - apply IH; auto. }
    repeat (apply NA; auto); intros x; rewrite ?in_app_iff, !filter_In, in_seq;
      intros [Lx Fx]; specialize (Sep x); unfold other in *;
      destruct (b_src b x), (b_act b x), (b_det b x), (is_mc e b x); cbn in *; intuition congruence.
  - apply NoDup_filter, seq_NoDup.
  - intros x. rewrite !in_app_iff, !filter_In. unfold other, is_mc.
    destruct (b_src b x), (b_act b x), (b_det b x), (0 <? steps e (b_del b x)); cbn; intuition congruence.
Qed.

Lemma all_perm : separate b -> Permutation (mc_nodes e b ++ ml_nodes e b) (seq 0 (b_np b)).
Proof.
  intros Sep. rewrite (mc_perm Sep). unfold ml_nodes.
  induction (seq 0 (b_np b)) as [|x l IH]; cbn; auto.
  destruct (is_mc e b x); cbn.
  - constructor. exact IH.
  - rewrite <- Permutation_middle. constructor. exact IH.
Qed.

Lemma mc_length : separate b -> length (mc_nodes e b) = length (mc_sorted e b).
Proof. intros Sep. apply Permutation_length, mc_perm, Sep. Qed.

Lemma in_mc i : separate b -> (In i (mc_nodes e b) <-> i < b_np b /\ lag e b i <> 0).
Proof.
  intros Sep. rewrite (mc_perm Sep), filter_In, in_seq, mc_lag, negb_true_iff, Nat.eqb_neq. lia.
Qed.

Lemma in_ml i : In i (ml_nodes e b) <-> i < b_np b /\ lag e b i = 0.
Proof.
  unfold ml_nodes. rewrite filter_In, in_seq, mc_lag, negb_involutive, Nat.eqb_eq. lia.
Qed.

Lemma mc_len_sum : length (mc_nodes e b) =
  num_src b + num_act b + length (filter other (seq 0 (b_np b))) + num_det b.
Proof. rewrite mc_eq, !app_length. unfold num_src, num_act, num_det. lia. Qed.

Lemma src_node i : i < b_np b -> b_src b i = true ->
  rank (b_src b) i < num_src b /\ nth (rank (b_src b) i) (mc_nodes e b) 0 = i.
Proof.
  intros L F. split; [apply rank_lt; auto|].
  rewrite mc_eq, app_nth1; [apply rank_nth; auto|apply rank_lt; auto].
Qed.

Lemma src_node' k : k < num_src b ->
  let i := nth k (mc_nodes e b) 0 in i < b_np b /\ b_src b i = true /\ rank (b_src b) i = k.
Proof.
  intros L. cbn. rewrite mc_eq, app_nth1 by exact L.
  destruct (nth_rank 0 L) as (i & Li & Fi & Ri & ->). auto.
Qed.

Lemma nosrc_node k : separate b -> num_src b <= k < length (mc_nodes e b) ->
  b_src b (nth k (mc_nodes e b) 0) = false.
Proof.
  intros Sep L.
  assert (I : In (nth k (mc_nodes e b) 0) (skipn (num_src b) (mc_nodes e b))).
  { replace k with (num_src b + (k - num_src b)) by lia.
    rewrite <- (firstn_skipn (num_src b) (mc_nodes e b)) at 1.
    assert (E : length (firstn (num_src b) (mc_nodes e b)) = num_src b) by (rewrite firstn_length; lia).
    rewrite app_nth2; rewrite E; [|lia].
    apply nth_In. rewrite skipn_length. lia. }
  assert (Lx : nth k (mc_nodes e b) 0 < b_np b).
  { apply in_mc; auto. apply nth_In. lia. }
  revert I Lx. generalize (nth k (mc_nodes e b) 0) as x. intros x I Lx.
  rewrite mc_eq, skipn_app in I. unfold num_src in I at 2.
  rewrite Nat.sub_diag, skipn_all2 in I by (unfold num_src; lia). cbn in I.
  rewrite !in_app_iff, !filter_In in I.
  destruct (b_src b x) eqn:F; auto.
  destruct (@Sep x Lx) as (A1 & A2 & A3). unfold other in I.
  specialize (A1 F). specialize (A2 F). rewrite F, A1, A2, andb_false_r in I. intuition congruence.
Qed.

Lemma det_node p : p < b_np b -> b_det b p = true ->
  rank (b_det b) p < num_det b /\
  nth (length (mc_nodes e b) - num_det b + rank (b_det b) p) (mc_nodes e b) 0 = p.
Proof.
  intros L F. pose proof (rank_lt L F) as R. fold (num_det b) in R. split; [exact R|].
  rewrite mc_eq, !app_assoc, app_length. fold (num_det b).
  set (l := _ ++ filter other _).
  rewrite app_nth2 by lia.
  replace (length l + num_det b - num_det b + rank (b_det b) p - length l) with (rank (b_det b) p) by lia.
  apply rank_nth; auto.
Qed.

Lemma nodes_order : separate b ->
  Permutation (mc_nodes e b) (filter (fun i => negb (lag e b i =? 0)) (seq 0 (b_np b))) /\
  NoDup (mc_nodes e b) /\
  (forall i, i < b_np b -> b_src b i = true -> nth_error (mc_nodes e b) (rank (b_src b) i) = Some i) /\
  (forall k, k < num_src b -> exists i, i < b_np b /\ b_src b i = true /\ rank (b_src b) i = k) /\
  (forall p, p < b_np b -> b_det b p = true ->
     nth_error (mc_nodes e b) (det_start (length (mc_nodes e b)) (num_det b) + rank (b_det b) p) = Some p) /\
  (forall k, k < num_det b -> exists p, p < b_np b /\ b_det b p = true /\ rank (b_det b) p = k).
Proof.
  intros Sep.
  assert (P : Permutation (mc_nodes e b) (filter (fun i => negb (lag e b i =? 0)) (seq 0 (b_np b)))).
  { rewrite (mc_perm Sep). erewrite filter_ext; [reflexivity|]. intros i. apply mc_lag. }
  pose proof mc_len_sum as HL.
  split; [exact P|]. split; [|split; [|split; [|split]]].
  - eapply Permutation_NoDup; [apply Permutation_sym, P|]. apply NoDup_filter, seq_NoDup.
  - intros i L F. destruct (src_node L F) as [R N]. rewrite <- N at 2. apply nth_error_nth'. lia.
  - intros k L. destruct (nth_rank 0 L) as (i & A & B & C & _). eauto.
  - intros p L F. destruct (det_node L F) as [R N].
    unfold det_start. destruct (Nat.eqb_spec (num_det b) 0); [lia|].
    rewrite <- N at 2. apply nth_error_nth'. lia.
  - intros k L. destruct (nth_rank 0 L) as (i & A & B & C & _). eauto.
Qed.

End Nodes.
