(** A concrete circuit for the examples, over the rational numbers: the all-pass ring. *)
From Coq Require Import QArith Qcanon Field.
From Verif Require Import Base NetModel NetSpec SimModel SimAlg SimSpec SimNodes SimProofs SimRegular SimDelay Gauss.
Set Implicit Arguments.
Unset Strict Implicit.
Local Open Scope string_scope.
Local Open Scope list_scope.
Local Open Scope nat_scope.

Definition qc0 : Qc := 0%Qc.
Definition qc1 : Qc := 1%Qc.
Definition q2 (a : Z) (p : positive) : Qc := Q2Qc (a # p).
Lemma qc_field : field_theory qc0 qc1 Qcplus Qcmult Qcminus Qcopp Qcdiv Qcinv (@eq Qc).
Proof. exact Qcft. Qed.
Lemma qc_ring : ring_theory qc0 qc1 Qcplus Qcmult Qcminus Qcopp (@eq Qc).
Proof. exact (F_R qc_field). Qed.
Definition qc_eqb (x y : Qc) : bool := Qeq_bool x y.
Lemma qc_eqb_eq x y : qc_eqb x y = true <-> x = y.
Proof.
  unfold qc_eqb. rewrite Qeq_bool_iff. split; [apply Qc_is_canon|intros ->; reflexivity].
Qed.
Definition qsolve := gauss_solve qc0 Qcplus Qcmult Qcminus Qcdiv qc_eqb.

(** One-port, waveguide and directional coupler with given complex entries. *)
Definition cst (x y : Qc) : nat -> Qc * Qc := fun _ => (x, y).
Definition zs : nat -> Qc * Qc := cst qc0 qc0.
Definition leaf (n : nat) (s d a : nat -> bool) (S : nat -> nat -> nat -> Qc * Qc) (del : Q) : net Qc :=
  {| b_np := n; b_C := fun _ _ => false; b_src := s; b_det := d; b_act := a; b_order := seq 0 n;
     b_S := S; b_del := fun _ => del |}.
Definition no (_ : nat) := false.
Definition yes (_ : nat) := true.
Definition q_src : net Qc := leaf 1 yes no no (fun _ _ => zs) 0%Q.
Definition q_det : net Qc := leaf 1 no yes no (fun _ _ => zs) 0%Q.
Definition q_wg (del : Q) : net Qc := leaf 2 no no no
  (fun i j => match i, j with 0, 1 | 1, 0 => cst qc1 qc0 | _, _ => zs end) del.
Definition q_dc : net Qc := leaf 4 no no no
  (fun i j => match i, j with
   | 0, 1 | 1, 0 | 2, 3 | 3, 2 => cst (q2 3 5) qc0
   | 0, 2 | 2, 0 | 1, 3 | 3, 1 => cst qc0 (q2 4 5)
   | _, _ => zs end) 0%Q.

Definition qbuild := @build (nat -> Qc * Qc) Q zs 0%Q.
Definition ring_parts : list (string * net Qc) :=
  [("s", q_src); ("dc", q_dc); ("wg", q_wg 1%Q); ("d", q_det)].
Definition ring_wires : list string := ["s:0:dc:0"; "dc:2:wg:0"; "wg:1:dc:3"; "dc:1:d:0"].
Definition qpair (i j a b : nat) : bool := (i =? a) && (j =? b) || (i =? b) && (j =? a).
(** What [qbuild] makes of it (see [qring_built]), written out for fast evaluation. *)
Definition qring : net Qc :=
  {| b_np := 8;
     b_C := fun i j => qpair i j 0 1 || qpair i j 3 5 || qpair i j 6 4 || qpair i j 2 7;
     b_src := fun i => i =? 0; b_det := fun i => i =? 7; b_act := no; b_order := seq 0 8;
     b_S := fun i j => if (1 <=? i) && (i <=? 4) && (1 <=? j) && (j <=? 4) then b_S q_dc (i - 1) (j - 1)
                       else if (5 <=? i) && (i <=? 6) && (5 <=? j) && (j <=? 6) then b_S (q_wg 0%Q) (i - 5) (j - 5)
                       else zs;
     b_del := fun i => if (5 <=? i) && (i <=? 6) then 1%Q else 0%Q |}.

Definition tenv (n : nat) : env := {| e_freq := false; e_dt := Some 1%Q; e_num_t := n; e_num_wl := 2 |}.
Definition fenv : env := {| e_freq := true; e_dt := None; e_num_t := 1; e_num_wl := 2 |}.

Definition noact (s : unit) (t : nat) (x : field Qc) : unit * field Qc := (s, x).
Definition qforward (e : env) (b : net Qc) (src : nat -> field Qc) : res (list (field Qc)) :=
  forward qc0 qc1 Qcplus Qcmult Qcminus Qcopp qsolve noact e b tt src.

(** A pulse in the first step, and a constant source. *)
Definition pulse (t : nat) : field Qc :=
  (fun _ _ c => if (t =? 0) && (c =? 0) then qc1 else qc0, fun _ _ _ => qc0).
Definition always (t : nat) : field Qc := (fun _ _ _ => qc1, fun _ _ _ => qc0).

(** The result at detector 0, wavelength [w], column [c]. *)
Definition show (w c : nat) (r : res (list (field Qc))) : list (Q * Q) :=
  match r with
  | Ok l => map (fun x => (this (fst x w 0 c), this (snd x w 0 c))) l
  | Err _ => []
  end.

(** All buffers of a network as lists. *)
Definition dump (b : net Qc) :=
  let l := seq 0 (b_np b) in
  (map (fun i => map (b_C b i) l) l, (map (b_src b) l, map (b_det b) l, map (b_act b) l), b_order b,
   map (fun i => map (fun j => (this (fst (b_S b i j 0)), this (snd (b_S b i j 0)))) l) l, map (b_del b) l).

Example qring_built : match qbuild ring_parts ring_wires with Ok b => dump b = dump qring | Err _ => False end.
Proof. vm_compute. reflexivity. Qed.

(** Checkers. *)
Definition unmixedb (e : env) (b : net Qc) (w : nat) : bool :=
  forallb (fun i => forallb (fun j =>
    Bool.eqb (lag e b i =? 0) (lag e b j =? 0)
    || (qc_eqb (fst (b_S b i j w)) qc0 && qc_eqb (snd (b_S b i j w)) qc0)) (seq 0 (b_np b))) (seq 0 (b_np b)).
Lemma unmixedb_ok e b w : unmixedb e b w = true -> unmixed qc0 e b w.
Proof.
  intros H i j Li Lj N. unfold unmixedb in H. rewrite forallb_forall in H.
  specialize (H i ltac:(apply in_seq; lia)). rewrite forallb_forall in H.
  specialize (H j ltac:(apply in_seq; lia)). apply orb_true_iff in H as [H|H].
  - apply eqb_prop in H. contradiction.
  - apply andb_true_iff in H as [H1 H2]. apply qc_eqb_eq in H1. apply qc_eqb_eq in H2.
    rewrite (surjective_pairing (b_S b i j w)), H1, H2. reflexivity.
Qed.

Definition flagsb (b : net Qc) : bool := forallb (fun i =>
  negb (b_src b i && b_det b i) && negb (b_src b i && b_act b i) && negb (b_det b i && b_act b i)) (seq 0 (b_np b)).
Lemma flagsb_ok b : flagsb b = true -> flags_ok b.
Proof.
  intros H i Li. unfold flagsb in H. rewrite forallb_forall in H. specialize (H i ltac:(apply in_seq; lia)).
  destruct (b_src b i), (b_det b i), (b_act b i); cbn in H; try discriminate; intuition congruence.
Qed.

Lemma flags_separate X D (b : buf X D) : flags_ok b <-> separate b.
Proof. unfold flags_ok, separate. split; intros H i Li; specialize (H i Li); tauto. Qed.

(** The ring built from its parts, simulated for a pulse: 3/5, -(4/5)^2 *)
Example ring_run : show 1 0 (qforward (tenv 2) qring pulse)
  = [((3 # 5), 0); (-16 # 25, 0)]%Q.
Proof. vm_compute. reflexivity. Qed.

Example ring_freq : show 1 0 (qforward fenv qring always) = [(-1 # 1, 0)]%Q.
Proof. vm_compute. reflexivity. Qed.

Lemma qring_flags : flags_ok qring.
Proof. apply flagsb_ok. vm_compute. reflexivity. Qed.
Lemma qring_unmixed n w : w < 2 -> unmixed qc0 (tenv n) qring w.
Proof.
  intros L. apply unmixedb_ok. destruct w as [|[|w]]; [vm_compute; reflexivity..|lia].
Qed.
Lemma qring_unmixed_f w : w < 2 -> unmixed qc0 fenv qring w.
Proof. intros L. apply unmixedb_ok. destruct w as [|[|w]]; [vm_compute; reflexivity..|lia]. Qed.
Lemma qsolve_sound : solver_sound qc0 Qcplus Qcmult qsolve.
Proof. exact (gauss_sound qc_field qc_eqb_eq). Qed.
Lemma qsolve_regular : solver_regular qc0 Qcplus Qcmult qsolve.
Proof. exact (gauss_regular qc_field qc_eqb_eq). Qed.
Lemma qsolve_complete : solver_complete qc0 Qcplus Qcmult qsolve.
Proof. exact (gauss_complete qc_field qc_eqb_eq). Qed.

Definition is_ok A (r : res A) : bool := match r with Ok _ => true | Err _ => false end.
Lemma is_ok_ex A (r : res A) : is_ok r = true -> exists a, r = Ok a.
Proof. destruct r; [eauto|discriminate]. Qed.

Lemma qforward_regular e b w : (exists o, qforward e b pulse = Ok o) -> w < e_num_wl e ->
  unmixed qc0 e b w -> no_resonance qc0 Qcplus Qcmult Qcminus e b w.
Proof.
  intros (o & HO) L U. exact (forward_regular qc_ring (w := w) qsolve_regular L U HO).
Qed.

Lemma qring_regular n w : w < 2 -> no_resonance qc0 Qcplus Qcmult Qcminus (tenv n) qring w.
Proof.
  intros L.
  change (no_resonance qc0 Qcplus Qcmult Qcminus (tenv n) qring w)
    with (no_resonance qc0 Qcplus Qcmult Qcminus (tenv 0) qring w).
  apply qforward_regular; [|exact L|apply qring_unmixed; auto]. apply is_ok_ex. vm_compute. reflexivity.
Qed.
Lemma qring_regular_f w : w < 2 -> no_resonance qc0 Qcplus Qcmult Qcminus fenv qring w.
Proof.
  intros L. apply qforward_regular; [|exact L|apply qring_unmixed_f; auto]. apply is_ok_ex. vm_compute. reflexivity.
Qed.
