From Verif Require Import Base CacheModel.
Set Implicit Arguments.
Unset Strict Implicit.

Section Cache.
Variables (P M X Y : Type).
Variable init : P -> nat -> M.
Variable simulate : M -> nat -> X -> Y.
Notation crun := (crun init simulate).
Notation cop := (cop P X).

(** The parameters after a history. *)
Definition params (p : P) (ops : list cop) : P :=
  fold_left (fun p o => match o with CSet _ f => f p | _ => p end) ops p.

(** An operation that leaves matrices of environment [env] in place: changing parameters, or a
    gradient-free run in that environment. *)
Definition keeps (env : nat) (o : cop) : Prop :=
  match o with CSet _ _ => True | CForward _ e g _ => e = env /\ g = false | CInit _ _ _ => False end.

(** Parameters were changed and after that the network only ran without gradients in [env]. *)
Definition changed_in (env : nat) (ops : list cop) : Prop :=
  exists l1 f l2, ops = l1 ++ CSet X f :: l2 /\ Forall (keeps env) l2.

Lemma crun_snoc p ops o : crun p (ops ++ [o]) = cstep init simulate (crun p ops) o.
Proof. unfold CacheModel.crun. rewrite fold_left_app. reflexivity. Qed.

Lemma crun_par p ops : c_par (crun p ops) = params p ops.
Proof.
  induction ops as [|o ops IH] using rev_ind; [reflexivity|].
  rewrite crun_snoc. unfold params in *. rewrite fold_left_app. cbn [fold_left].
  rewrite <- IH. destruct o as [f|e|e g x]; auto. cbn. unfold prepare.
  destruct (c_cache _) as [[e' m]|]; auto. destruct (negb _ || g); auto.
Qed.

(** The cache is for some environment, and fresh unless parameters changed since. *)
Lemma cache_inv p ops e m : c_cache (crun p ops) = Some (e, m) ->
  m = init (params p ops) e \/ changed_in e ops.
Proof.
  revert e m. induction ops as [|o ops IH] using rev_ind; [discriminate|].
  intros e m. rewrite crun_snoc.
  assert (RE : forall e', c_cache (reinit init (crun p ops) e') = Some (e, m) -> m = init (params p ops) e).
  { intros e' H. cbn in H. injection H as <- <-. rewrite crun_par. reflexivity. }
  assert (PP : params p (ops ++ [o]) = match o with CSet _ f => f (params p ops) | _ => params p ops end).
  { unfold params. rewrite fold_left_app. reflexivity. }
  rewrite PP. destruct o as [f|e'|e' g x].
  - intros _. right. exists ops, f, []. split; auto.
  - cbn [cstep]. intros H. left. eauto.
  - cbn [cstep cforward fst]. unfold prepare.
    destruct (c_cache (crun p ops)) as [[e1 m1]|] eqn:E; [|intros H; left; eauto].
    destruct (negb (e1 =? e') || g) eqn:R; [intros H; left; eauto|].
    apply orb_false_iff in R as [R ->]. apply negb_false_iff, Nat.eqb_eq in R. subst e1.
    intros H. rewrite E in H. injection H as <- <-.
    destruct (IH _ _ eq_refl) as [->|(l1 & f & l2 & -> & F)]; [now left|]. right.
    exists l1, f, (l2 ++ [CForward P e' false x]). rewrite <- app_assoc. split; [reflexivity|].
    apply Forall_app. split; auto. repeat constructor.
Qed.

Theorem forward_fresh p ops env grad x :
  grad = true \/ ~ changed_in env ops ->
  snd (cforward init simulate (crun p ops) env grad x) = Some (simulate (init (params p ops) env) env x).
Proof.
  intros H. unfold cforward, prepare. rewrite <- crun_par.
  destruct (c_cache (crun p ops)) as [[e m]|] eqn:E; [|reflexivity].
  destruct (negb (e =? env) || grad) eqn:R; [reflexivity|].
  apply orb_false_iff in R as [R ->]. apply negb_false_iff, Nat.eqb_eq in R. subst e.
  cbn [snd]. rewrite E. destruct H as [|H]; [discriminate|].
  destruct (cache_inv E) as [->|C]; [|contradiction]. rewrite crun_par. reflexivity.
Qed.
End Cache.
