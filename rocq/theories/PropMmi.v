(** C115: the weights MMIs accept. *)
From Coq Require Import QArith Reals Lra Lia.
From Verif Require Import Base NetModel NetSpec OrderProofs SimModel SimAlg SimSpec CircuitSpec CircuitProofs EnergyNet CompModel CompSpec CompProofs CompMore MmiModel MmiSpec.
Set Implicit Arguments.
Unset Strict Implicit.
Local Open Scope R_scope.
Local Open Scope list_scope.
Local Open Scope nat_scope.

Lemma any_false (X D : Type) (b : buf X D) f : (forall i, f i = false) -> any_port b f = false.
Proof. intros H. unfold any_port. generalize (seq 0 (b_np b)). intros l. induction l as [|a l IH]; cbn; rewrite ?H; auto. Qed.

Lemma check_ports m n (W : nat -> nat -> R * R) :
  check_buf false (mmi m n W) = if m + n =? 0 then Err NameError else Ok (mmi m n W).
Proof.
  unfold check_buf. rewrite !any_false by (intros; reflexivity). cbn [andb].
  destruct (Nat.eqb_spec (m + n) 0) as [E|E].
  - rewrite no_ports_bad by exact E. reflexivity.
  - rewrite order_good; [reflexivity| |cbn; lia]. cbn [mmi simple component b_order]. apply in_seq. lia.
Qed.

(** How the component maps waves: [W] from right to left, its transpose from left to right. *)
Definition acts (b : net R) (m n : nat) (W : nat -> nat -> R * R) : Prop :=
  b_np b = m + n /\
  (forall p i j w, b_C b i j = false /\ b_src b p = false /\ b_det b p = false /\ b_act b p = false /\ b_del b p = 0%Q /\ b_order b = seq 0 (m + n) /\
     ((i < m /\ j < m \/ m <= i /\ m <= j) -> b_S b i j w = (0, 0)%R)) /\
  (forall w x i, i < m -> rscatter b w x i = apply_mat n W (fun j => x (m + j)) i) /\
  (forall w x j, j < n -> rscatter b w x (m + j) = apply_mat m (fun j i => W i j) x j).

Lemma mmi_acts m n W : acts (mmi m n W) m n W.
Proof.
  split; [reflexivity|]. split.
  - intros p i j w. repeat (split; [reflexivity|]). intros H. cbn [mmi simple component b_S].
    destruct (Nat.ltb_spec i m), (Nat.leb_spec m j), (Nat.leb_spec m i), (Nat.ltb_spec j m); cbn [andb]; try reflexivity; lia.
  - split; intros w x i Hi.
    + apply (mmi_scatter m n W w x); exact Hi.
    + apply (mmi_scatter m n W w x); exact Hi.
Qed.

Lemma acts_ext b m n W W' : (forall i j, W i j = W' i j) -> acts b m n W -> acts b m n W'.
Proof.
  intros E (H1 & H2 & H3 & H4). split; [exact H1|]. split; [exact H2|]. split.
  - intros w x i Hi. rewrite H3 by exact Hi. apply (lsum_ext (K := (R * R)%type) (0, 0)%R rcadd). intros j _. now rewrite E.
  - intros w x j Hj. rewrite H4 by exact Hj. apply (lsum_ext (K := (R * R)%type) (0, 0)%R rcadd). intros i _. now rewrite E.
Qed.

(** Weights in one of the four forms give the component they describe. *)
Theorem C115_accepted w m n W : says w m n W -> 0 < m + n -> exists b, mmi_of w = Ok b /\ acts b m n W.
Proof.
  intros H Hn. unfold mmi_of, mmi_new. destruct H; cbn -[Nat.add check_buf mmi]; rewrite check_ports.
  - eexists. split; [reflexivity|]. eapply acts_ext; [|apply mmi_acts]. intros i j. cbn. do 2 f_equal. lra.
  - destruct (Nat.eqb_spec (m + n) 0); [lia|]. eexists. split; [reflexivity|].
    eapply acts_ext; [|apply mmi_acts]. intros i j. cbn. now destruct (v [i; j]).
  - destruct (Nat.eqb_spec (m + n) 0); [lia|]. eexists. split; [reflexivity|].
    eapply acts_ext; [|apply mmi_acts]. intros i j. reflexivity.
  - destruct (Nat.eqb_spec (m + n) 0); [lia|]. eexists. split; [reflexivity|]. apply mmi_acts.
Qed.

(** A tensor with a single part is accepted too, and its numbers are used as real and as imaginary parts. *)
Theorem C115_one_part m n v : 0 < m + n ->
  exists b, mmi_of (WTensor [1; m; n] v) = Ok b /\ acts b m n (fun i j => (v [0; i; j], v [0; i; j])).
Proof.
  intros Hn. unfold mmi_of, mmi_new. cbn -[Nat.add check_buf mmi]. rewrite check_ports. destruct (Nat.eqb_spec (m + n) 0); [lia|].
  eexists. split; [reflexivity|]. apply mmi_acts.
Qed.

(** The outcome for all weights. *)
Definition outcome (w : weights) : res (nat * nat) :=
  match w with
  | WNone => Ok (1, 2)
  | WArray [m; n] _ | WTensor [m; n] _ => if m + n =? 0 then Err NameError else Ok (m, n)
  | WTensor [k; m; n] _ => if m + n =? 0 then Err NameError else if (k =? 1) || (k =? 2) then Ok (m, n) else Err RuntimeError
  | _ => Err ValueError
  end.

Theorem C115_outcome w :
  match outcome w with
  | Ok (m, n) => exists b W, mmi_of w = Ok b /\ acts b m n W
  | Err e => mmi_of w = Err e
  end.
Proof.
  unfold mmi_of, mmi_new. destruct w as [|sh v|sh v].
  - cbn -[Nat.add check_buf mmi]. rewrite check_ports. cbn -[check_buf mmi]. eexists _, _. split; [reflexivity|]. apply mmi_acts.
  - destruct sh as [|m [|n [|k [|? sh]]]]; try reflexivity.
    cbn -[Nat.add check_buf mmi]. rewrite check_ports. destruct (Nat.eqb_spec (m + n) 0); [reflexivity|].
    cbn -[Nat.add check_buf mmi]. eexists _, _. split; [reflexivity|]. apply mmi_acts.
  - destruct sh as [|k [|m [|n [|? sh]]]]; try reflexivity.
    + cbn -[Nat.add check_buf mmi]. rewrite check_ports. destruct (Nat.eqb_spec (k + m) 0); [reflexivity|].
      cbn -[Nat.add check_buf mmi]. eexists _, _. split; [reflexivity|]. apply mmi_acts.
    + destruct k as [|[|[|k]]]; cbn -[Nat.add check_buf mmi]; rewrite check_ports; destruct (Nat.eqb_spec (m + n) 0); try reflexivity;
        cbn -[Nat.add check_buf mmi]; eexists _, _; (split; [reflexivity|]); apply mmi_acts.
Qed.

(** The accepted weights are exactly those. *)
Theorem C115_exact w : (exists b, mmi_of w = Ok b) <->
  (exists m n W, says w m n W /\ 0 < m + n) \/ (exists m n v, w = WTensor [1; m; n] v /\ 0 < m + n).
Proof.
  split.
  - intros (b & Hb). pose proof (C115_outcome w) as H. destruct w as [|sh v|sh v].
    + left. exists 1, 2. eexists. split; [constructor|lia].
    + left. destruct sh as [|m [|n [|k sh]]]; cbn [outcome] in H; try congruence.
      destruct (Nat.eqb_spec (m + n) 0); [congruence|]. exists m, n. eexists. split; [constructor|lia].
    + destruct sh as [|k [|m [|n [|? sh]]]]; cbn [outcome] in H; try congruence.
      * left. destruct (Nat.eqb_spec (k + m) 0); [congruence|]. exists k, m. eexists. split; [constructor|lia].
      * destruct (Nat.eqb_spec (m + n) 0) as [|E]; [congruence|].
        destruct k as [|[|[|k]]]; cbn in H; try congruence.
        -- right. exists m, n, v. split; [reflexivity|lia].
        -- left. exists m, n. eexists. split; [constructor|lia].
  - intros [(m & n & W & H & Hn)|(m & n & v & -> & Hn)].
    + destruct (C115_accepted H Hn) as (b & Hb & _). eauto.
    + destruct (C115_one_part v Hn) as (b & Hb & _). eauto.
Qed.

(** The error message of the constructor promises "at least 2D and at most 3D [first index real|imag]"; an
    array with the parts along the first axis is refused all the same. *)
Theorem C115_array_parts_refuted : forall m n v, mmi_of (WArray [2; m; n] v) = Err ValueError.
Proof. reflexivity. Qed.

(** An even splitter whose weights are given with a single part doubles the power. *)
Theorem C115_one_part_refuted : exists b, mmi_of (WTensor [1; 1; 2] (fun _ => sqrt (1 / 2))) = Ok b /\
  b_np b = 3 /\ forall w, rpower 3 (rscatter b w (fun i => if i =? 0 then (1, 0)%R else (0, 0)%R)) = 2%R.
Proof.
  destruct (@C115_one_part 1 2 (fun _ => sqrt (1 / 2))) as (b & Hb & H1 & _ & H2 & H3); [lia|].
  exists b. split; [exact Hb|]. split; [exact H1|]. intros w.
  unfold power_all. cbn [seq lsum map fold_right].
  assert (Q : (sqrt (1 / 2) * sqrt (1 / 2) = 1 / 2)%R) by (apply sqrt_sqrt; lra).
  set (x := fun i => if i =? 0 then (1, 0)%R else (0, 0)%R).
  pose proof (H2 w x 0 ltac:(lia)) as A0. pose proof (H3 w x 0 ltac:(lia)) as A1. pose proof (H3 w x 1 ltac:(lia)) as A2.
  cbn [Nat.add] in A1, A2. 
  unfold lsum. cbn [fold_left]. rewrite A0, A1, A2. unfold apply_mat, lsum, x. cbn. 
  set (s := sqrt (1 / 2)) in *. unfold norm2, cadd, cmul. cbn [fst snd]. transitivity (4 * (s * s))%R; [ring|rewrite Q; field].
Qed.

(** More parts pass the constructor and fail at the initialization. *)
Theorem C115_many_parts_refuted : forall k m n v, 0 < m + n -> 2 < k ->
  mmi_new (WTensor [k; m; n] v) = Ok ([k; m; n], v) /\ mmi_of (WTensor [k; m; n] v) = Err RuntimeError.
Proof.
  intros k m n v Hn Hk. unfold mmi_of, mmi_new. cbn -[Nat.add check_buf mmi]. rewrite check_ports.
  destruct (Nat.eqb_spec (m + n) 0); [lia|]. cbn -[Nat.add check_buf mmi]. split; [reflexivity|].
  unfold mmi_set_S. cbn -[Nat.add check_buf mmi]. destruct k as [|[|[|k]]]; try lia. reflexivity.
Qed.

Example C115_ex : says (WArray [2; 2] (fun i => match i with [a; b] => if a =? b then (1 / 2, 0)%R else (0, 1 / 2)%R | _ => (0, 0)%R end)) 2 2
  (fun i j => if i =? j then (1 / 2, 0)%R else (0, 1 / 2)%R) /\ 0 < 2 + 2.
Proof. split; [exact (says_array 2 2 _)|lia]. Qed.

Print Assumptions C115_accepted.
Print Assumptions C115_one_part.
Print Assumptions C115_outcome.
Print Assumptions C115_exact.
Print Assumptions C115_array_parts_refuted.
Print Assumptions C115_one_part_refuted.
Print Assumptions C115_many_parts_refuted.
