(** Properties C96-C99: devices, gradients and the checks of constructors. *)
From Coq Require Import Reals Lra.
From Verif Require Import Base CompModel CompMore DevModel PropComp.
Set Implicit Arguments.
Unset Strict Implicit.

(** ** Spec *)
(** [inside x m]: [x] is [m] or one of its modules at any depth. *)
Inductive inside (x : tree) : tree -> Prop :=
| In_here : inside x x
| In_child m c : In c (children m) -> inside x c -> inside x m.
Definition all_on (d : dev) (m : tree) : Prop := forall x, inside x m -> device x = Some d.

(** * C96 *)
Lemma to_inside a m : forall x, inside x (to a m) -> device x = to_device a.
Proof.
  intros x H. remember (to a m) as t eqn:E. revert m E. induction H as [|t c Hc H IH]; intros m E.
  - subst x. destruct m. reflexivity.
  - subst t. destruct m as [d l]. cbn in Hc. apply in_map_iff in Hc. destruct Hc as (c0 & <- & _). exact (IH c0 eq_refl).
Qed.
(** Moving a network to a device moves everything in it, at any depth, and [is_cuda] tells. *)
Theorem C96_moved d dt m : all_on d (to {| to_device := Some d; to_dtype := dt |} m).
Proof. intros x H. exact (to_inside H). Qed.
Theorem C96_is_cuda i m : is_cuda (to_cuda i m) = Ok true /\ is_cuda (to_cpu m) = Ok false.
Proof. destruct m. split; reflexivity. Qed.
(** Moving changes nothing else: the modules stay where they are in the tree. *)
Fixpoint shape (m : tree) : tree := match m with Node _ l => Node None (map shape l) end.
Theorem C96_structure a : forall m, shape (to a m) = shape m.
Proof.
  fix F 1. intros [d l]. cbn. f_equal. rewrite map_map. induction l as [|c l IH]; [reflexivity|]. cbn. f_equal; [apply F|exact IH].
Qed.
(** False for conversions of the data type only: afterwards the device is None everywhere, asking for
    it is an error, and the network cannot be terminated any more. *)
Theorem C96_dtype_refuted m : let m' := to {| to_device := None; to_dtype := true |} m in
  (forall x, inside x m' -> device x = None) /\ is_cuda m' = Err AttributeError
  /\ forall terms, terminate m' terms = Err AttributeError.
Proof.
  cbv zeta. split; [intros x H; exact (to_inside H)|]. destruct m. split; reflexivity.
Qed.
Example C96_ex : let m := new_module [new_module [new_module []]; new_module []] in
  inside (Node (Some (Cuda 1)) []) (to_cuda (Some 1) m) /\ all_on (Cuda 1) (to_cuda (Some 1) m).
Proof.
  cbv zeta. split; [|apply C96_moved]. eapply In_child; [left; reflexivity|]. eapply In_child; [left; reflexivity|]. apply In_here.
Qed.

(** * C97 *)
(** A terminated network should be where the network is.  True on the CPU and of the meshes: *)
Lemma inside_new x l : inside x (new_module l) -> x = new_module l \/ exists c, In c l /\ inside x c.
Proof. intros H. inversion H as [|m c Hc H1]; subst; [now left|]. right. exists c. auto. Qed.
Theorem C97_cpu nw terms : all_on Cpu nw -> Forall (all_on Cpu) terms -> exists r,
  terminate nw terms = Ok r /\ all_on Cpu r.
Proof.
  intros Hn Ht. unfold terminate, is_cuda. rewrite (Hn nw (In_here nw)). cbn [bind]. eexists. split; [reflexivity|].
  intros x Hx. apply inside_new in Hx. destruct Hx as [->|(c & Hc & Hx)]; [reflexivity|].
  destruct Hc as [<-|Hc]; [auto|]. apply in_app_or in Hc. rewrite Forall_forall in Ht.
  destruct Hc as [Hc|[<-|[]]]; [exact (Ht c Hc x Hx)|auto].
Qed.
Theorem C97_mesh d nw terms : device nw = Some d -> exists r, mesh_terminate nw terms = Ok r /\ all_on d r.
Proof.
  intros H. unfold mesh_terminate, terminate, is_cuda. rewrite H. destruct d; cbn [bind]; eexists; (split; [reflexivity|]);
    intros x Hx; exact (to_inside Hx).
Qed.
(** False on a GPU: the new network says it is on the CPU, and the terms are moved to the first GPU
    whichever the network is on. *)
Theorem C97_refuted i nw terms : device nw = Some (Cuda i) -> exists r, terminate nw terms = Ok r
  /\ is_cuda r = Ok false /\ device r = Some Cpu
  /\ (forall t, In t terms -> exists c, In c (children r) /\ device c = Some (Cuda 0)).
Proof.
  intros H. unfold terminate, is_cuda. rewrite H. cbn [bind]. eexists. split; [reflexivity|]. cbn. split; [reflexivity|]. split; [reflexivity|].
  intros t Ht. exists (to_cuda None t). split; [|destruct t; reflexivity]. right. apply in_or_app. left. now apply in_map.
Qed.
(** It can be repaired from outside by moving the result. *)
Theorem C97_moved i nw terms r : terminate nw terms = Ok r -> all_on (Cuda i) (to_cuda (Some i) r).
Proof. intros _. apply C96_moved. Qed.
Example C97_ex : exists r, terminate (to_cuda (Some 1) (new_module [new_module []])) [new_module []] = Ok r /\ ~ all_on (Cuda 1) r.
Proof.
  eexists. split; [reflexivity|]. intros H. generalize (H _ (In_here _)). discriminate.
Qed.

(** * C98 *)
Section Grad.
Variable G : Type.
Variable g0 : G.
Variable gadd : G -> G -> G.
Notation gradients := (gradients g0 gadd).
(** The sum of what backward() calls add. *)
Definition added (os : list (top G)) : G := fold_left (fun s o => match o with TBackward g => gadd s g | _ => s end) os g0.
(** A forward pass that initializes the network. *)
Definition initializes (o : top G) : Prop := match o with TForward grad same => grad = true \/ same = false | _ => False end.
(** What torch promises: gradients accumulate from one zero_grad() of the user to the next. *)
Fixpoint since_zero (os acc : list (top G)) : list (top G) :=
  match os with [] => acc | TZero :: r => since_zero r [] | o :: r => since_zero r (acc ++ [o]) end.
Definition accumulated (os : list (top G)) : G := added (since_zero os []).

Lemma run_quiet os s : (forall o, In o os -> ~ initializes o /\ o <> TZero) ->
  fold_left (tstep g0 gadd) os s = fold_left (fun s o => match o with TBackward g => gadd s g | _ => s end) os s.
Proof.
  revert s. induction os as [|o os IH]; intros s H; [reflexivity|]. cbn. destruct (H o (or_introl eq_refl)) as [H1 H2].
  rewrite IH by (intros o' Ho; apply H; now right). f_equal. destruct o as [gr sm|g| |]; cbn; try reflexivity; [|congruence].
  cbn in H1. destruct gr, sm; cbn; try reflexivity; exfalso; apply H1; auto.
Qed.
(** The gradients are those of the losses since the last zero_grad() or initializing forward pass. *)
Theorem C98_exact pre o os : (initializes o \/ o = TZero) -> (forall x, In x os -> ~ initializes x /\ x <> TZero) ->
  gradients (pre ++ o :: os) = added os.
Proof.
  intros Ho Hq. unfold DevModel.gradients, added. rewrite fold_left_app. cbn.
  replace (tstep g0 gadd (fold_left (tstep g0 gadd) pre g0) o) with g0; [now apply run_quiet|].
  destruct o as [gr sm|g| |]; cbn in *; try reflexivity.
  - destruct Ho as [[->| ->]|]; [| |discriminate]; cbn; [now rewrite orb_true_r|reflexivity].
  - destruct Ho as [[]|]; discriminate.
  - destruct Ho as [[]|]; discriminate.
Qed.
(** The usual loop does what torch promises: zero_grad(), forward passes, then backward(). *)
Theorem C98_loop pre fwd bwd : (forall x, In x fwd -> forall g, x <> TBackward g) -> (forall x, In x fwd -> x <> TZero) ->
  (forall x, In x bwd -> ~ initializes x /\ x <> TZero) ->
  let os := pre ++ TZero :: fwd ++ bwd in gradients os = accumulated os.
Proof.
  intros Hf Hfz Hb os. assert (Ea : accumulated os = added (fwd ++ bwd)).
  { unfold accumulated, os. clear os. f_equal.
    assert (Z : forall l acc, (forall x, In x l -> x <> TZero) -> since_zero l acc = acc ++ l).
    { induction l as [|x l IH]; intros acc H; cbn; [now rewrite app_nil_r|].
      assert (E : since_zero (x :: l) acc = since_zero l (acc ++ [x])).
      { destruct x; try reflexivity. exfalso. exact (H TZero (or_introl eq_refl) eq_refl). }
      change (since_zero (x :: l) acc = acc ++ x :: l). rewrite E, IH by (intros y Hy; apply H; now right). now rewrite <- app_assoc. }
    assert (P : forall l acc, since_zero (l ++ TZero :: fwd ++ bwd) acc = since_zero (fwd ++ bwd) []).
    { induction l as [|x l IH]; intros acc; [reflexivity|]. destruct x; cbn; apply IH. }
    rewrite P, Z; [reflexivity|]. intros x Hx. apply in_app_or in Hx. destruct Hx; [auto|now apply Hb]. }
  rewrite Ea. unfold os, DevModel.gradients, added. rewrite fold_left_app. cbn. rewrite !fold_left_app, (run_quiet _ Hb). f_equal.
  transitivity g0.
  - clear -Hf. induction fwd as [|x l IH]; [reflexivity|]. cbn. replace (tstep g0 gadd g0 x) with g0.
    + apply IH. intros y Hy. apply Hf. now right.
    + destruct x as [gr sm|g| |]; cbn; [destruct (negb sm || gr); reflexivity| |reflexivity|reflexivity].
      exfalso. exact (Hf _ (or_introl eq_refl) g eq_refl).
  - symmetry. clear -Hf. induction fwd as [|x l IH]; [reflexivity|]. cbn.
    destruct x as [gr sm|g| |]; try (apply IH; intros y Hy; apply Hf; now right).
    exfalso. exact (Hf _ (or_introl eq_refl) g eq_refl).
Qed.
(** False in general: the gradients of a first loss are lost when the network is used again before
    the optimizer step; even without gradients, in another environment. *)
Theorem C98_refuted g1 g2 : gadd g0 g2 <> gadd (gadd g0 g1) g2 -> gadd g0 g1 <> g0 ->
  (let os := [TZero; TForward true true; TBackward g1; TForward true true; TBackward g2] in
   gradients os = gadd g0 g2 /\ gradients os <> accumulated os)
  /\ (let os := [TZero; TForward true true; TBackward g1; TForward false false] in
      gradients os = g0 /\ gradients os <> accumulated os).
Proof. intros H1 H2. cbn. repeat split; auto. Qed.
End Grad.
Example C98_ex : gradients 0 plus [TZero; TForward true true; TBackward 3; TForward true true; TBackward 4] = 4
  /\ gradients 0 plus ([TBackward 7] ++ TZero :: [TForward true true; TForward true true] ++ [TBackward 3; TBackward 4]) = 7.
Proof. split; reflexivity. Qed.

(** * C99 *)
Local Open Scope R_scope.
(** Trainable couplers and all mirrors: created exactly for couplings between 0 and 1, with that value. *)
Theorem C99_trainable k r : coupler_ctor true k = Ok r <-> 0 <= k <= 1 /\ r = k.
Proof.
  unfold coupler_ctor. split.
  - destruct (bounded_new [k] 0 1) as [p|] eqn:E; [|discriminate]. cbn [bind]. rewrite (C40_roundtrip E). cbn. intros [= <-].
    split; [|reflexivity]. assert (X : exists p, bounded_new [k] 0 1 = Ok p) by eauto. apply C40_create in X.
    destruct X as [_ X]. now inversion X.
  - intros [H ->]. assert (X : exists p, bounded_new [k] 0 1 = Ok p).
    { apply C40_create. split; [lra|]. constructor; [lra|constructor]. }
    destruct X as [p E]. rewrite E. cbn [bind]. now rewrite (C40_roundtrip E).
Qed.
Theorem C99_mirror t k r : mirror_ctor t k = Ok r <-> 0 <= k <= 1 /\ r = k.
Proof. exact (C99_trainable k r). Qed.
Theorem C99_outside k : ~ (0 <= k <= 1) -> coupler_ctor true k = Err ValueError.
Proof.
  intros H. unfold coupler_ctor. rewrite C40_refuse; [reflexivity|]. intros [_ X]. inversion X; subst. contradiction.
Qed.
Theorem C99_soa a r : (soa_ctor a = Ok r <-> 1 <= a /\ r = a) /\ (a < 1 -> soa_ctor a = Err ValueError).
Proof.
  unfold soa_ctor. destruct (Rlt_dec a 1) as [H|H]; (split; [split|]); try discriminate; try lra; try reflexivity; [intros [= <-]; lra|intros [_ ->]; reflexivity].
Qed.
(** False of couplers that are not trainable: any coupling is accepted (and [LinearSoa] accepts any
    amplification). *)
Theorem C99_refuted : exists k, ~ (0 <= k <= 1) /\ coupler_ctor false k = Ok k.
Proof. exists 2. split; [lra|reflexivity]. Qed.
Example C99_ex : coupler_ctor true (1 / 4) = Ok (1 / 4).
Proof. apply C99_trainable. lra. Qed.

Print Assumptions C96_moved.
Print Assumptions C96_is_cuda.
Print Assumptions C96_structure.
Print Assumptions C96_dtype_refuted.
Print Assumptions C97_cpu.
Print Assumptions C97_mesh.
Print Assumptions C97_refuted.
Print Assumptions C97_moved.
Print Assumptions C98_exact.
Print Assumptions C98_loop.
Print Assumptions C98_refuted.
Print Assumptions C99_trainable.
Print Assumptions C99_mirror.
Print Assumptions C99_outside.
Print Assumptions C99_soa.
Print Assumptions C99_refuted.
