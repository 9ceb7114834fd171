(** Property C109: simulations with one network object after each other. *)
From Coq Require Import QArith Qcanon.
From Verif Require Import Base NetModel NetSpec SimModel SimSpec SimDelay LifeModel LifeProofs RingExample.
Set Implicit Arguments.
Unset Strict Implicit.
Local Open Scope nat_scope.

(** * C109 *)
(** Whatever was done with a network before (simulations in other environments, failed ones, changes
    of parameters, components used elsewhere), a call gives the result or the exception of a new
    network with the same parameters; except without gradients in the environment of the last
    successful initialization, if something happened since. *)
Theorem C109_independent_partial (K : Type) (k0 k1 : K) kadd kmul ksub kopp solve (P : Type) envs base
  S_at del_at (comp_init : P -> nat -> nat -> res unit) (A : Type) act (s0 : A) n p ops en grad source :
  ready base ->
  grad = true \/
  snd (history k0 k1 kadd kmul ksub kopp solve envs base S_at del_at comp_init n p ops) <> Some (en, true) ->
  let '(q, st) := lops k0 k1 kadd kmul ksub kopp solve envs base S_at del_at comp_init act s0 p n ops in
  snd (lforward k0 k1 kadd kmul ksub kopp solve envs base S_at del_at comp_init act s0 q en grad source st)
  = snd (lforward k0 k1 kadd kmul ksub kopp solve envs base S_at del_at comp_init act s0 q en grad source
           (fresh K P n)).
Proof. exact (@independent K k0 k1 kadd kmul ksub kopp solve P envs base S_at del_at comp_init A act s0 n p ops en grad source). Qed.
Print Assumptions C109_independent_partial.

(** The result of a new network is the one all other properties are about. *)
Theorem C109_new_network (K : Type) (k0 k1 : K) kadd kmul ksub kopp solve (P : Type) envs base
  S_at del_at (comp_init : P -> nat -> nat -> res unit) (A : Type) act (s0 : A) n
  (act0 : A -> nat -> field K -> A * field K) p en grad source :
  ready base -> separate base -> timed (envs en) ->
  (forall i, i < n -> comp_init p en i = Ok tt) ->
  (forall s t y, num_act base <> 0 -> act p (repeat (Some (en, p)) n) s t y = Ok (act0 s t y)) ->
  snd (lforward k0 k1 kadd kmul ksub kopp solve envs base S_at del_at comp_init act s0 p en grad source
         (fresh K P n))
  = forward k0 k1 kadd kmul ksub kopp solve act0 (envs en) (net_at base S_at del_at p en) s0 source.
Proof. exact (@new_network K k0 k1 kadd kmul ksub kopp solve P envs base S_at del_at comp_init A act s0 n act0 p en grad source). Qed.
Print Assumptions C109_new_network.

(** What an initialization leaves behind in which component [k] raises: the components before it
    have the new environment, it and all others and the network keep what they had. *)
Theorem C109_failed_state (K : Type) (k0 k1 : K) kadd kmul ksub kopp solve (P : Type) envs base
  S_at del_at (comp_init : P -> nat -> nat -> res unit) p en (st : lstate K P) k x :
  k < length (l_comps st) -> (forall i, i < k -> comp_init p en i = Ok tt) -> comp_init p en k = Err x ->
  let '(st', r) := linit k0 k1 kadd kmul ksub kopp solve envs base S_at del_at comp_init p en st in
  r = Err x /\ length (l_comps st') = length (l_comps st)
  /\ (forall i, nth i (l_comps st') None = if i <? k then Some (en, p) else nth i (l_comps st) None)
  /\ l_num_mc st' = l_num_mc st /\ l_delays st' = l_delays st /\ l_data st' = l_data st /\ l_env st' = l_env st.
Proof.
  intros L H E. unfold linit.
  assert (G : forall l a k, k < length l -> (forall i, i < k -> comp_init p en (a + i) = Ok tt) -> comp_init p en (a + k) = Err x ->
    exists l', init_comps comp_init p en a l = (l', Err x) /\ length l' = length l
      /\ forall i, nth i l' None = if i <? k then Some (en, p) else nth i l None).
  { clear. induction l as [|c l IH]; intros a k L H E; [inversion L|]. cbn [init_comps]. destruct k as [|k].
    - rewrite Nat.add_0_r in E. rewrite E. exists (c :: l). auto.
    - specialize (H 0 ltac:(lia)) as H0. rewrite Nat.add_0_r in H0. rewrite H0.
      destruct (IH (S a) k) as (l' & -> & LL & N).
      + cbn in L. lia.
      + intros i Li. rewrite Nat.add_succ_comm. apply H. lia.
      + rewrite Nat.add_succ_comm. exact E.
      + exists (Some (en, p) :: l'). split; [reflexivity|]. split; [cbn; congruence|]. intros [|i]; [reflexivity|]. cbn [nth]. rewrite N. reflexivity. }
  destruct (G (l_comps st) 0 k L H E) as (l' & -> & LL & N). cbn. auto 10.
Qed.
Print Assumptions C109_failed_state.
(** And one in which no component raises: all components have the new environment. *)
Theorem C109_component_state (K : Type) (k0 k1 : K) kadd kmul ksub kopp solve (P : Type) envs base
  S_at del_at (comp_init : P -> nat -> nat -> res unit) p en (st : lstate K P) :
  (forall i, i < length (l_comps st) -> comp_init p en i = Ok tt) ->
  l_comps (fst (linit k0 k1 kadd kmul ksub kopp solve envs base S_at del_at comp_init p en st)) = repeat (Some (en, p)) (length (l_comps st)).
Proof.
  intros H. unfold linit.
  assert (G : forall l a, (forall i, i < length l -> comp_init p en (a + i) = Ok tt) ->
    init_comps comp_init p en a l = (repeat (Some (en, p)) (length l), Ok tt)).
  { clear. induction l as [|c l IH]; intros a H; [reflexivity|]. cbn [init_comps length repeat].
    specialize (H 0 ltac:(cbn; lia)) as H0. rewrite Nat.add_0_r in H0. rewrite H0, IH; [reflexivity|].
    intros i Li. rewrite Nat.add_succ_comm. apply H. cbn. lia. }
  rewrite (G (l_comps st) 0 H). destruct (initialize _ _ _ _ _ _ _ _ _) as [[m|]|]; reflexivity.
Qed.
Print Assumptions C109_component_state.

(** What is read when the stored mask and the new buffer do not belong together (after an initialization
    that raised).  If the buffer has one slot only, every node reads the field of the last step: the
    delays are gone.  If the mask has one slot only, a node reads the sum of all fields still stored.
    Other depths are refused. *)
Section Stale.
Variables (K : Type) (k0 k1 : K) (kadd kmul ksub : K -> K -> K) (kopp : K -> K).
Hypothesis Krt : ring_theory k0 k1 kadd kmul ksub kopp eq.
Add Ring Kr : Krt.
Notation lsum := (@lsum K k0 kadd _).
Lemma one_hot (x : K) d : forall a n, a <= d < a + n ->
  lsum (fun t => kmul (if t =? d then k1 else k0) x) (seq a n) = x.
Proof.
  assert (Z : forall a n, (forall t, a <= t < a + n -> t <> d) -> lsum (fun t => kmul (if t =? d then k1 else k0) x) (seq a n) = k0).
  { intros a n. revert a. induction n as [|n IH]; intros a H; [reflexivity|]. cbn [seq SimModel.lsum fold_right].
    unfold SimModel.lsum in IH. rewrite IH by (intros t L; apply H; lia). destruct (Nat.eqb_spec a d) as [->|_]; [exfalso; apply (H d); [lia|reflexivity]|]. ring. }
  intros a n. revert a. induction n as [|n IH]; intros a H; [lia|]. cbn [seq SimModel.lsum fold_right]. unfold SimModel.lsum in IH, Z.
  destruct (Nat.eqb_spec a d) as [->|N].
  - rewrite Z by (intros; lia). ring.
  - rewrite IH by lia. ring.
Qed.
Theorem C109_stale_mask (m : init K) (f : field K) (w i c d : nat) : i_depth m <> 1 ->
  d < i_depth m -> (forall t, i_mask m t i = if t =? d then k1 else k0) ->
  fst (lread k0 kadd kmul m [f]) w i c = fst f w i c /\ snd (lread k0 kadd kmul m [f]) w i c = snd f w i c.
Proof.
  intros N L M. unfold lread. cbn [length Nat.eqb]. replace (i_depth m =? 1) with false by (symmetry; apply Nat.eqb_neq; exact N).
  rewrite Nat.max_l by lia. cbn [fst snd nth].
  assert (G : forall x, lsum (fun t => kmul (i_mask m t i) x) (seq 0 (i_depth m)) = x).
  { intros x. transitivity (lsum (fun t => kmul (if t =? d then k1 else k0) x) (seq 0 (i_depth m))); [|apply one_hot; lia]. unfold SimModel.lsum.
    induction (seq 0 (i_depth m)) as [|t l IH]; [reflexivity|]. cbn [fold_right]. now rewrite IH, M. }
  split; apply G.
Qed.
Theorem C109_stale_buffer (m : init K) (b : list (field K)) (w i c : nat) : i_depth m = 1 -> 2 <= length b -> i_mask m 0 i = k1 ->
  fst (lread k0 kadd kmul m b) w i c = fold_right (fun f s => kadd (fst f w i c) s) k0 b
  /\ snd (lread k0 kadd kmul m b) w i c = fold_right (fun f s => kadd (snd f w i c) s) k0 b.
Proof.
  intros D L M. unfold lread. rewrite D. replace (1 =? length b) with false by (symmetry; apply Nat.eqb_neq; lia).
  replace (length b =? 1) with false by (symmetry; apply Nat.eqb_neq; lia). rewrite Nat.max_r by lia. cbn [Nat.eqb fst snd]. rewrite M.
  assert (G : forall (g : field K -> K) (l : list (field K)), lsum (fun t => kmul k1 (g (nth t l (zero_field k0)))) (seq 0 (length l)) = fold_right (fun f s => kadd (g f) s) k0 l).
  { intros g. unfold SimModel.lsum. induction l as [|a l IH]; [reflexivity|]. cbn [length seq fold_right nth]. rewrite <- IH, <- seq_shift.
    assert (E : forall l', fold_right (fun t s => kadd (kmul k1 (g (nth t (a :: l) (zero_field k0)))) s) k0 (map S l') = fold_right (fun t s => kadd (kmul k1 (g (nth t l (zero_field k0)))) s) k0 l').
    { induction l' as [|x l' IH']; [reflexivity|]. cbn [map fold_right]. now rewrite IH'. }
    rewrite E. ring. }
  split; [apply (G (fun f => fst f w i c))|apply (G (fun f => snd f w i c))].
Qed.
End Stale.
Print Assumptions C109_stale_mask.
Print Assumptions C109_stale_buffer.
Theorem C109_depths (K : Type) (k0 : K) kadd kmul ksub (P : Type) envs base (A : Type) act (s0 : A) (p : P) (st : lstate K P) en m d source :
  l_env st = Some en -> l_data st = Some m -> e_num_t (envs en) <> 0 -> ldepth (envs en) (l_delays st) = Ok d ->
  i_depth m <> d -> i_depth m <> 1 -> d <> 1 ->
  simulate_stored k0 kadd kmul ksub envs base act s0 p st source = Err RuntimeError.
Proof.
  intros E M T D N1 N2 N3. unfold simulate_stored. rewrite E, M, D. cbn [bind].
  apply Nat.eqb_neq in T, N1, N2, N3. now rewrite T, N1, N2, N3.
Qed.
Print Assumptions C109_depths.
(** Without any delays the largest one cannot be taken. *)
Theorem C109_no_delays e : e_freq e = false -> ldepth e [] = Err RuntimeError.
Proof. unfold ldepth. now intros ->. Qed.

(** Three environments: two time steps of length 1, the frequency domain, two steps of length 1/2. *)
Definition x_envs (en : nat) : env :=
  match en with
  | 0 => tenv 2
  | 1 => fenv
  | _ => {| e_freq := false; e_dt := Some (1 # 2)%Q; e_num_t := 2; e_num_wl := 2 |}
  end.

(** A source and a detector, and a lossless waveguide whose ends are connected. *)
Definition x_loop : buf unit unit :=
  {| b_np := 4; b_C := fun i j => qpair i j 0 1 || qpair i j 2 3; b_src := fun i => i =? 0;
     b_det := fun i => i =? 1; b_act := no; b_order := seq 0 4; b_S := fun _ _ => tt; b_del := fun _ => tt |}.
Definition x_S (_ : unit) (en i j w : nat) : Qc * Qc := if qpair i j 2 3 then (qc1, qc0) else (qc0, qc0).
Definition x_del (_ : unit) (en i : nat) : Q := if i <? 2 then 0%Q else 1%Q.
Definition x_good (_ : unit) (en i : nat) : res unit := Ok tt.
Definition x_pass (_ : unit) (_ : inits unit) (s : unit) (t : nat) (y : field Qc) : res (unit * field Qc) := Ok (s, y).
Definition x_call en g st := lforward qc0 qc1 Qcplus Qcmult Qcminus Qcopp qsolve x_envs x_loop x_S x_del x_good x_pass tt
  tt en g pulse st.
Definition x_after ops := snd (lops qc0 qc1 Qcplus Qcmult Qcminus Qcopp qsolve x_envs x_loop x_S x_del x_good x_pass tt
  tt 3 ops).

Lemma x_ready : ready x_loop.
Proof. split; [reflexivity|]. exists 0. split; [cbn; lia|left; reflexivity]. Qed.

(** Two successful calls in different environments. *)
Example C109_ex :
  snd (history qc0 qc1 Qcplus Qcmult Qcminus Qcopp qsolve x_envs x_loop x_S x_del x_good 3 tt
         [LForward 2 false pulse; LSet (fun u => u); LForward 0 false pulse; LForward 1 true pulse; LInit 2])
    = Some (2, false)
  /\ show 0 0 (snd (x_call 2 false (x_after [LForward 0 false pulse; LForward 1 true pulse]))) = [(1, 0); (0, 0)]%Q.
Proof. split; vm_compute; reflexivity. Qed.

(** After a simulation that failed (here: in the frequency domain the loop has no unique solution),
    simulations that worked before fail as well, although nothing has changed. *)
Theorem C109_failed_refuted :
  ready x_loop /\
  show 0 0 (snd (x_call 0 false (fresh Qc unit 3))) = [(1, 0); (0, 0)]%Q /\
  show 0 0 (snd (x_call 0 false (x_after [LForward 0 false pulse]))) = [(1, 0); (0, 0)]%Q /\
  snd (x_call 1 false (x_after [LForward 0 false pulse])) = Err RuntimeError /\
  snd (x_call 0 false (x_after [LForward 0 false pulse; LForward 1 false pulse])) = Err RuntimeError /\
  show 0 0 (snd (x_call 0 true (x_after [LForward 0 false pulse; LForward 1 false pulse]))) = [(1, 0); (0, 0)]%Q.
Proof. split; [exact x_ready|]. repeat split; vm_compute; reflexivity. Qed.
Print Assumptions C109_failed_refuted.

(** A source, a detector and between them an active component that adds the time step of its own
    environment to the field, as a subclass of Component may do (soas.py:94 uses it like this). *)
Definition y_line : buf unit unit :=
  {| b_np := 4; b_C := fun i j => qpair i j 0 1 || qpair i j 2 3; b_src := fun i => i =? 0;
     b_det := fun i => i =? 3; b_act := fun i => (i =? 1) || (i =? 2); b_order := seq 0 4;
     b_S := fun _ _ => tt; b_del := fun _ => tt |}.
Definition y_S (_ : unit) (en i j w : nat) : Qc * Qc := (qc0, qc0).
Definition y_del (_ : unit) (en i : nat) : Q := 0%Q.
Definition y_act (_ : unit) (cs : inits unit) (s : unit) (t : nat) (y : field Qc) : res (unit * field Qc) :=
  match nth 1 cs None with
  | Some (en, _) =>
      match e_dt (x_envs en) with
      | Some dt => Ok (s, (fun w i c => if i =? 2 then Qcplus (fst y w i c) (Q2Qc dt) else fst y w i c, snd y))
      | None => Err TypeError
      end
  | None => Err AttributeError
  end.
(** The last component does not work in the frequency domain, like AgrawalSoa. *)
Definition y_init (_ : unit) (en i : nat) : res unit :=
  if (i =? 2) && (en =? 1) then Err RuntimeError else Ok tt.
Definition y_call en g st := lforward qc0 qc1 Qcplus Qcmult Qcminus Qcopp qsolve x_envs y_line y_S y_del y_init y_act tt
  tt en g pulse st.
Definition y_after ops := snd (lops qc0 qc1 Qcplus Qcmult Qcminus Qcopp qsolve x_envs y_line y_S y_del y_init y_act tt
  tt 3 ops).

(** [C109_failed_state] with [k = 2]: after a call in environment 0 and the refused one in environment 1. *)
Example C109_failed_state_ex :
  y_init tt 1 2 = Err RuntimeError /\ (forall i, i < 2 -> y_init tt 1 i = Ok tt)
  /\ l_comps (y_after [LForward 0 false pulse]) = [Some (0, tt); Some (0, tt); Some (0, tt)]
  /\ l_comps (y_after [LForward 0 false pulse; LForward 1 false pulse]) = [Some (1, tt); Some (1, tt); Some (0, tt)].
Proof.
  split; [reflexivity|]. split; [intros [|[|i]] L; try reflexivity; lia|]. split; vm_compute; reflexivity.
Qed.

(** The call in the frequency domain is refused by the last component only, the one before it has
    changed its environment already. *)
Theorem C109_component_refuted :
  ready y_line /\
  show 0 0 (snd (y_call 0 false (y_after [LForward 0 false pulse]))) = [(1, 0); (1, 0)]%Q /\
  snd (y_call 1 false (y_after [LForward 0 false pulse])) = Err RuntimeError /\
  snd (y_call 0 false (y_after [LForward 0 false pulse; LForward 1 false pulse])) = Err TypeError.
Proof.
  split; [split; [reflexivity|exists 0; split; [cbn; lia|left; reflexivity]]|].
  repeat split; vm_compute; reflexivity.
Qed.
Print Assumptions C109_component_refuted.

(** A component that is initialized with another network: the first network goes on with the time
    step of the other environment, without any exception. *)
Theorem C109_shared_refuted :
  ready y_line /\
  show 0 0 (snd (y_call 0 false (y_after [LForward 0 false pulse]))) = [(1, 0); (1, 0)]%Q /\
  show 0 0 (snd (y_call 0 false (y_after [LForward 0 false pulse; LTouch 1 2]))) = [(1 # 2, 0); (1 # 2, 0)]%Q.
Proof.
  split; [split; [reflexivity|exists 0; split; [cbn; lia|left; reflexivity]]|].
  repeat split; vm_compute; reflexivity.
Qed.
Print Assumptions C109_shared_refuted.

(** In short: without any change of parameters a call can differ from that of a new network. *)
Theorem C109_refuted : exists ops en, Forall (fun o => match o with LSet _ => False | _ => True end) ops /\
  snd (x_call en false (x_after ops)) <> snd (x_call en false (fresh Qc unit 3)).
Proof.
  exists [LForward 0 false pulse; LForward 1 false pulse], 0. split; [repeat constructor|].
  intros E. destruct C109_failed_refuted as (_ & F & _ & _ & G & _). rewrite <- E, G in F. discriminate.
Qed.
Print Assumptions C109_refuted.
