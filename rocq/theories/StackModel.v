(** The stacks of current environments and current networks, driven by with-blocks. *)
From Verif Require Import Base.
Set Implicit Arguments.
Unset Strict Implicit.

(** Programs that enter and leave with-blocks.  [Fail] raises an exception; [Try p] catches one
    (try: p except Exception: pass).  An object is named by a number (its identity). *)
Inductive prog :=
| Skip
| Fail
| Seq (p q : prog)
| Try (p : prog)
| With (o : nat) (p : prog)
| SetEnv (o : nat).

(** ** Environments *)
(** [grad]: torch's gradient mode.  [prev o]: what the grad manager of environment [o] remembers.
    torch.no_grad / torch.enable_grad (external): entering stores the current mode in the manager
    and switches to the manager's mode; leaving restores the stored mode. *)
Record est := { s_stack : list nat; s_grad : bool; s_prev : nat -> bool }.

Definition upd (f : nat -> bool) (o : nat) (b : bool) : nat -> bool :=
  fun x => if Nat.eqb x o then b else f x.

Section Env.
(** The [grad] attribute of each environment: its manager is enable_grad or no_grad
    (environment.py:402). *)
Variable mode : nat -> bool.

(** environment.py:468-472 [__enter__]. *)
Definition env_enter (o : nat) (s : est) : est :=
  {| s_stack := o :: s_stack s; s_grad := mode o; s_prev := upd (s_prev s) o (s_grad s) |}.

(** environment.py:474-481 [__exit__]: pops the top only if it is this environment; the gradient
    mode is restored in any case.  [_current_environments[0]] on an empty stack: IndexError. *)
Definition env_exit (o : nat) (s : est) : res est :=
  match s_stack s with
  | [] => Err IndexError
  | top :: rest =>
      Ok {| s_stack := if Nat.eqb top o then rest else s_stack s;
            s_grad := s_prev s o; s_prev := s_prev s |}
  end.

(** The outcome: the state and whether an exception is propagating. *)
Fixpoint erun (p : prog) (s : est) : est * bool :=
  match p with
  | Skip => (s, false)
  | Fail => (s, true)
  | Seq p q => let '(s1, f) := erun p s in if f then (s1, true) else erun q s1
  | Try p => let '(s1, _) := erun p s in (s1, false)
  | With o p =>
      let '(s1, f) := erun p (env_enter o s) in
      match env_exit o s1 with
      | Ok s2 => (s2, f)
      | Err _ => (s1, true)
      end
  | SetEnv o => (env_enter o s, false)   (* environment.py:591-614 *)
  end.

End Env.

(** environment.py:579-588. *)
Definition current_environment (s : est) : res nat :=
  match s_stack s with o :: _ => Ok o | [] => Err RuntimeError end.

(** ** Networks *)
(** network.py:1035-1047: leaving by an exception raises it again before the stack is touched;
    leaving normally deletes the top of the stack, whatever it is. *)
Fixpoint nrun (p : prog) (st : list nat) : list nat * bool :=
  match p with
  | Skip => (st, false)
  | Fail => (st, true)
  | Seq p q => let '(s1, f) := nrun p st in if f then (s1, true) else nrun q s1
  | Try p => let '(s1, _) := nrun p st in (s1, false)
  | With o p =>
      let '(s1, f) := nrun p (o :: st) in
      if f then (s1, true)
      else match s1 with [] => (s1, true) | _ :: rest => (rest, false) end
  | SetEnv _ => (st, false)
  end.

(** network.py:1053-1056. *)
Definition current_network (st : list nat) : option nat :=
  match st with o :: _ => Some o | [] => None end.

(** ** Specification *)
(** No set_environment() in the program. *)
Fixpoint pure_blocks (p : prog) : Prop :=
  match p with
  | Skip | Fail => True
  | Seq p q => pure_blocks p /\ pure_blocks q
  | Try p => pure_blocks p
  | With _ p => pure_blocks p
  | SetEnv _ => False
  end.

(** The objects whose with-blocks occur in a program. *)
Fixpoint used (p : prog) : list nat :=
  match p with
  | Skip | Fail | SetEnv _ => []
  | Seq p q => used p ++ used q
  | Try p => used p
  | With o p => o :: used p
  end.

(** No with-block of an object inside a with-block of the same object. *)
Fixpoint not_reentered (p : prog) : Prop :=
  match p with
  | Skip | Fail | SetEnv _ => True
  | Seq p q => not_reentered p /\ not_reentered q
  | Try p => not_reentered p
  | With o p => ~ In o (used p) /\ not_reentered p
  end.

(** Does the program end with an exception?  And how many with-blocks are left by one? *)
Fixpoint fails (p : prog) : bool :=
  match p with
  | Skip | SetEnv _ => false
  | Fail => true
  | Seq p q => fails p || fails q
  | Try _ => false
  | With _ p => fails p
  end.

Fixpoint broken (p : prog) : nat :=
  match p with
  | Skip | Fail | SetEnv _ => 0
  | Seq p q => if fails p then broken p else broken p + broken q
  | Try p => broken p
  | With _ p => broken p + (if fails p then 1 else 0)
  end.

(** ** Proofs *)
Section EnvProofs.
Variable mode : nat -> bool.

Lemma erun_stack : forall p s, pure_blocks p ->
  s_stack (fst (erun mode p s)) = s_stack s /\ snd (erun mode p s) = fails p.
Proof.
  induction p as [| |p IHp q IHq|p IHp|o p IHp|o]; intros s H; cbn in *.
  - auto.
  - auto.
  - destruct H as [Hp Hq]. destruct (IHp s Hp) as [A B]. destruct (erun mode p s) as [s1 f].
    cbn in A, B. subst f. destruct (fails p); cbn; [auto|].
    destruct (IHq s1 Hq) as [C D]. rewrite C, D. auto.
  - destruct (IHp s H) as [A B]. destruct (erun mode p s) as [s1 f]. cbn in *. auto.
  - destruct (IHp (env_enter mode o s) H) as [A B].
    destruct (erun mode p (env_enter mode o s)) as [s1 f]. cbn in A, B.
    unfold env_exit. rewrite A, Nat.eqb_refl. cbn. auto.
  - contradiction.
Qed.

Lemma erun_prev : forall p s o, pure_blocks p -> ~ In o (used p) ->
  s_prev (fst (erun mode p s)) o = s_prev s o.
Proof.
  induction p as [| |p IHp q IHq|p IHp|o' p IHp|o']; intros s o H N; cbn in *; try reflexivity.
  - destruct H as [Hp Hq]. rewrite in_app_iff in N.
    specialize (IHp s o Hp ltac:(tauto)). destruct (erun mode p s) as [s1 f]. cbn in IHp.
    destruct f; [exact IHp|]. rewrite (IHq s1 o Hq ltac:(tauto)). exact IHp.
  - specialize (IHp s o H N). destruct (erun mode p s) as [s1 f]. exact IHp.
  - destruct (erun_stack (env_enter mode o' s) H) as [A _].
    specialize (IHp (env_enter mode o' s) o H ltac:(tauto)).
    destruct (erun mode p (env_enter mode o' s)) as [s1 f]. cbn in A, IHp.
    unfold env_exit. rewrite A. cbn. rewrite IHp. unfold upd.
    destruct (Nat.eqb_spec o o'); [subst; tauto|reflexivity].
  - contradiction.
Qed.

Lemma erun_grad : forall p s, pure_blocks p -> not_reentered p ->
  s_grad (fst (erun mode p s)) = s_grad s.
Proof.
  induction p as [| |p IHp q IHq|p IHp|o p IHp|o]; intros s H N; cbn in *; try reflexivity.
  - destruct H as [Hp Hq], N as [Np Nq]. specialize (IHp s Hp Np).
    destruct (erun mode p s) as [s1 f]. cbn in IHp. destruct f; [exact IHp|].
    rewrite (IHq s1 Hq Nq). exact IHp.
  - specialize (IHp s H N). destruct (erun mode p s). exact IHp.
  - destruct N as [N1 N2]. destruct (erun_stack (env_enter mode o s) H) as [A _].
    pose proof (@erun_prev p (env_enter mode o s) o H N1) as P.
    destruct (erun mode p (env_enter mode o s)) as [s1 f]. cbn in A, P.
    unfold env_exit. rewrite A. cbn. rewrite P. unfold upd. rewrite Nat.eqb_refl. reflexivity.
  - contradiction.
Qed.

(** Inside a block, before anything else happens, its environment is the current one. *)
Lemma enter_current : forall o s,
  current_environment (env_enter mode o s) = Ok o /\ s_grad (env_enter mode o s) = mode o.
Proof. intros o s. split; reflexivity. Qed.

End EnvProofs.

Lemma nrun_fails : forall p st, snd (nrun p st) = fails p /\ length (fst (nrun p st)) = length st + broken p.
Proof.
  induction p as [| |p IHp q IHq|p IHp|o p IHp|o]; intros st; cbn.
  - split; [reflexivity|lia].
  - split; [reflexivity|lia].
  - destruct (IHp st) as [A B]. destruct (nrun p st) as [s1 f]. cbn in A, B. subst f.
    destruct (fails p); cbn; [auto|]. destruct (IHq s1) as [C D]. rewrite C, D. split; [reflexivity|lia].
  - destruct (IHp st) as [A B]. destruct (nrun p st) as [s1 f]. cbn in *. auto.
  - destruct (IHp (o :: st)) as [A B]. destruct (nrun p (o :: st)) as [s1 f]. cbn in A, B. subst f.
    destruct (fails p); cbn; [split; [reflexivity|lia]|].
    destruct s1 as [|x s1]; cbn in *; [lia|]. split; [reflexivity|lia].
  - split; [reflexivity|lia].
Qed.

(** No block left by an exception: the stack is restored exactly. *)
Lemma nrun_restores : forall p st, broken p = 0 -> fst (nrun p st) = st.
Proof.
  induction p as [| |p IHp q IHq|p IHp|o p IHp|o]; intros st H; cbn in *; try reflexivity.
  - destruct (nrun_fails p st) as [A _]. destruct (fails p) eqn:F.
    + specialize (IHp st H). destruct (nrun p st) as [s1 f]. cbn in *. subst f. exact IHp.
    + specialize (IHp st ltac:(lia)). destruct (nrun p st) as [s1 f]. cbn in *. subst f s1.
      apply IHq. lia.
  - specialize (IHp st H). destruct (nrun p st). exact IHp.
  - destruct (nrun_fails p (o :: st)) as [A _]. specialize (IHp (o :: st) ltac:(lia)).
    destruct (nrun p (o :: st)) as [s1 f]. cbn in A, IHp. subst f s1.
    destruct (fails p); [lia|]. reflexivity.
Qed.
