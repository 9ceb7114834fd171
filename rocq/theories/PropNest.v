(** Properties C102 and C117: circuits of any depth in terms of their plain components. *)
From Coq Require Import QArith Qcanon Ring Permutation.
From Verif Require Import Base PyStr NetModel NetSpec NetProofs WireProofs OrderProofs NetBuild StateProofs SimModel SimAlg SimSpec SimNodes SimProofs SimDelay SimRegular
  Gauss CircuitSpec CircuitProofs RingExample RelabelSpec Relabel Flatten NestSpec Nested PropRelabel.
Set Implicit Arguments.
Unset Strict Implicit.
Local Open Scope nat_scope.
Local Open Scope list_scope.

Section Props.
Variables (K : Type) (k0 k1 : K) (kadd kmul ksub : K -> K -> K) (kopp : K -> K).
Variable solve : nat -> nat -> mat K -> mat K -> option (mat K).
Variables (A : Type) (act : A -> nat -> field K -> A * field K).
Notation cx := (prod K K).
Notation net := (buf (nat -> cx) Q).
Notation comp := (comp (nat -> cx) Q).
Notation compile := (@compile (nat -> cx) Q (fun _ => c0 k0) 0%Q).
Notation agree := (agree k0 k1 kadd kmul ksub kopp solve act).

(** The buffers of a circuit, at any depth: one port for every port of the plain components it uses, with the flags, delays
    and scattering of that component, no scattering between components, and wires exactly where a connection is declared. *)
Theorem C117_made_of (t : comp) (b : net) : tidy k0 t -> compile t = Ok b -> made_of k0 t b.
Proof. intros HT Hb. exact (compile_made HT Hb). Qed.

(** Two circuits, of any depth, with the same plain components joined at the same ports record the same fields. *)
Section Ring.
Hypothesis KR : ring_theory k0 k1 kadd kmul ksub kopp (@eq K).
Hypothesis SS : solver_sound k0 kadd kmul solve.
Hypothesis SR : solver_regular k0 kadd kmul solve.
Theorem C102_nested (e : env) (h hi : list string -> list string) (t t' : comp) (b b' : net) :
  tidy k0 t -> tidy k0 t' -> compile t = Ok b -> compile t' = Ok b' -> same_circuit k0 h hi t t' ->
  (forall w, w < e_num_wl e -> every_leaf (fun c => unmixed k0 e c w) t) -> num_act b = 0 ->
  agree e b b' (fun i i' => exists path q, nth_error (ports_of t) i = Some (path, q) /\ nth_error (ports_of t') i' = Some (h path, q)).
Proof.
  intros HT HT' Hb Hb' SC U NA. pose proof (compile_made HT Hb) as M. pose proof (compile_made HT' Hb') as M'.
  apply relabel_agree with (f := renumber h t t') (g := renumber hi t' t); auto.
  - exact (same_relabels SC M M').
  - exact (compile_flags Hb).
  - intros w Lw. exact (compile_unmixed (U w Lw) Hb).
  - intros i i' (path & q & E & E'). split; [rewrite <- (mo_len M); apply nth_error_Some; congruence|].
    exact (nth_once (mo_once M') E' (renumber_at SC E)).
  - intros i Li. destruct (at_lt M Li) as (path & q & E). exists path, q. split; [exact E|exact (renumber_at SC E)].
Qed.
End Ring.
End Props.

(** * Example: the ring of [RingExample] as a network of networks of networks *)
Local Open Scope string_scope.
Local Notation qcomp := (comp (nat -> Qc * Qc) Q).
Local Notation qcompile := (@compile (nat -> Qc * Qc) Q zs 0%Q).
Definition inner_ring : qcomp := Net [("wg", Leaf (q_wg 1%Q)); ("dc", Leaf q_dc)] sub_wires'.
Definition stage : qcomp := Net [("ring", inner_ring)] ["ring:0:0"; "ring:1:1"].
Definition deep_ring : qcomp := Net [("s", Leaf q_src); ("stage", stage); ("d", Leaf q_det)] ["stage:-1:d:0"; "s:0:stage:0"].
Definition flat_ring : qcomp := Net (map (fun m => (fst m, Leaf (snd m))) ring_parts) ring_wires.
Definition flat_path (p : list string) : list string :=
  match p with ["stage"; "ring"; n] => [n] | _ => p end.
Definition deep_path (p : list string) : list string :=
  match p with [n] => if (String.eqb n "wg" || String.eqb n "dc")%bool then ["stage"; "ring"; n] else p | _ => p end.
Definition value (t : qcomp) : net Qc := match qcompile t with Ok b => b | Err _ => q_dc end.
Lemma value_ok t : match qcompile t with Ok _ => True | Err _ => False end -> qcompile t = Ok (value t).
Proof. unfold value. now destruct (qcompile t). Qed.

Lemma value_is t d : @compile (nat -> Qc * Qc) Q (fun _ => c0 qc0) 0%Q t = Ok d -> d = value t.
Proof. intros H. unfold value. change zs with (fun _ : nat => c0 qc0). now rewrite H. Qed.
Lemma leaf_order (c : net Qc) : b_order c = seq 0 (b_np c) -> forall d, qcompile (Leaf c) = Ok d -> order_ok d.
Proof. intros E d H. cbn in H. apply check_buf_Ok in H. subst d. unfold order_ok. rewrite E. apply Permutation_refl. Qed.
Lemma leaf_tidy (c : net Qc) : b_order c = seq 0 (b_np c) -> tidy qc0 (Leaf c) /\ forall d, qcompile (Leaf c) = Ok d -> order_ok d.
Proof. intros E. split; [constructor|now apply leaf_order]. Qed.
Ltac each I := repeat (destruct I as [X|I]; [injection X as <- <-; first [apply leaf_tidy; reflexivity|idtac]|]); try now destruct I.
Lemma inner_tidy : tidy qc0 inner_ring.
Proof. constructor. intros n t I. each I. Qed.
Lemma stage_tidy : tidy qc0 stage.
Proof.
  constructor. intros n t [X|[]]. injection X as <- <-. split; [exact inner_tidy|]. intros d H. apply value_is in H. subst d. unfold order_ok. replace (b_order (value inner_ring)) with [2; 3; 0; 1; 4; 5] by (vm_compute; reflexivity). change (b_np (value inner_ring)) with 6.
  change [2; 3; 0; 1; 4; 5] with ([2; 3] ++ [0; 1] ++ [4; 5])%list. apply Permutation_app_swap_app.
Qed.
Lemma deep_tidy : tidy qc0 deep_ring.
Proof.
  constructor. intros n t I. each I. split; [exact stage_tidy|]. intros d H. apply value_is in H. subst d. unfold order_ok. vm_compute. apply Permutation_refl.
Qed.
Lemma flat_tidy : tidy qc0 flat_ring.
Proof. constructor. intros n t I. each I. Qed.
Lemma deep_ok : qcompile deep_ring = Ok (value deep_ring).
Proof. apply value_ok. vm_compute. exact I. Qed.
Lemma flat_ok : qcompile flat_ring = Ok (value flat_ring).
Proof. apply value_ok. vm_compute. exact I. Qed.

Ltac leaf_cases := repeat match goal with
  | |- leaf_at ?p (Leaf _) = _ -> _ => destruct p; [intros [= <-]; reflexivity|discriminate]
  | |- leaf_at ?p _ = _ -> _ => destruct p as [|?n p]; [discriminate|]; cbn [leaf_at assoc flat_ring deep_ring stage inner_ring map fst snd ring_parts]
  | |- context [String.eqb ?x ?y] => destruct (String.eqb x y)
  | |- None = Some _ -> _ => discriminate
  end.
Example C102_nested_ex : tidy qc0 deep_ring /\ tidy qc0 flat_ring /\ qcompile deep_ring = Ok (value deep_ring) /\ qcompile flat_ring = Ok (value flat_ring)
  /\ same_circuit qc0 flat_path deep_path deep_ring flat_ring
  /\ (forall w, w < 2 -> every_leaf (fun c => unmixed qc0 (tenv 2) c w) deep_ring) /\ num_act (value deep_ring) = 0 /\ terminated (value deep_ring) = true.
Proof.
  split; [exact deep_tidy|]. split; [exact flat_tidy|]. split; [exact deep_ok|]. split; [exact flat_ok|].
  assert (M : made_of qc0 deep_ring (value deep_ring)) by (apply C117_made_of; [exact deep_tidy|exact deep_ok]).
  assert (M' : made_of qc0 flat_ring (value flat_ring)) by (apply C117_made_of; [exact flat_tidy|exact flat_ok]).
  assert (T : forall path q, In (path, q) (ports_of deep_ring) -> deep_path (flat_path path) = path /\ In (flat_path path, q) (ports_of flat_ring) /\ leaf_at (flat_path path) flat_ring = leaf_at path deep_ring).
  { intros path q H. vm_compute in H. repeat (destruct H as [H|H]; [injection H as <- <-; split; [reflexivity|split; [vm_compute; tauto|reflexivity]]|]). destruct H. }
  assert (T' : forall path q, In (path, q) (ports_of flat_ring) -> flat_path (deep_path path) = path /\ In (deep_path path, q) (ports_of deep_ring) /\ leaf_at (deep_path path) deep_ring = leaf_at path flat_ring).
  { intros path q H. vm_compute in H. repeat (destruct H as [H|H]; [injection H as <- <-; split; [reflexivity|split; [vm_compute; tauto|reflexivity]]|]). destruct H. }
  split; [|split; [|split; vm_compute; reflexivity]].
  - constructor; [exact T|exact T'| |].
    + apply (join_by_wiring M M'); [intros path q H; apply (T path q H)| |].
      * intros path c q q'. leaf_cases.
      * change (b_np (value deep_ring)) with 8. intros i j Li Lj.
        do 8 (destruct i as [|i]; [do 8 (destruct j as [|j]; [vm_compute; first [reflexivity|discriminate|intros _; reflexivity]|]); lia|]). lia.
    + apply (join_by_wiring M' M); [intros path q H; apply (T' path q H)| |].
      * intros path c q q'. leaf_cases.
      * change (b_np (value flat_ring)) with 8. intros i j Li Lj.
        do 8 (destruct i as [|i]; [do 8 (destruct j as [|j]; [vm_compute; first [reflexivity|discriminate|intros _; reflexivity]|]); lia|]). lia.
  - intros w Lw. assert (UL : forall c, forallb (fun w => unmixedb (tenv 2) c w) [0; 1] = true -> every_leaf (fun c => unmixed qc0 (tenv 2) c w) (Leaf c)).
    { intros c H. constructor. apply unmixedb_ok. cbn in H. apply andb_true_iff in H. destruct H as [H0 H]. apply andb_true_iff in H. destruct H as [H1 _].
      destruct w as [|[|w]]; [exact H0|exact H1|lia]. }
    constructor. intros n t H. repeat (destruct H as [X|H]; [injection X as <- <-|]); [apply UL; vm_compute; reflexivity| |apply UL; vm_compute; reflexivity|destruct H].
    constructor. intros n t [X|[]]; injection X as <- <-. constructor. intros n t H. repeat (destruct H as [X|H]; [injection X as <- <-; apply UL; vm_compute; reflexivity|]). destruct H.
Qed.
Print Assumptions C117_made_of.
Print Assumptions C102_nested.
Example C117_ex : tidy qc0 deep_ring /\ qcompile deep_ring = Ok (value deep_ring) /\ length (ports_of deep_ring) = 8
  /\ leaf_at ["stage"; "ring"; "dc"] deep_ring = Some q_dc /\ linked qc0 deep_ring (["stage"; "ring"; "dc"], 1) (["d"], 0)
  /\ ~ linked qc0 deep_ring (["stage"; "ring"; "dc"], 1) (["s"], 0).
Proof.
  pose proof (C117_made_of deep_tidy deep_ok) as M. split; [exact deep_tidy|]. split; [exact deep_ok|]. split; [reflexivity|]. split; [reflexivity|]. split.
  - assert (C : b_C (value deep_ring) 3 6 = true) by (vm_compute; reflexivity). apply (mo_C M (i := 3) (j := 6) eq_refl eq_refl) in C.
    destruct C as [[E _]|C]; [discriminate|exact C].
  - intros L. assert (C : b_C (value deep_ring) 3 7 = true) by (apply (mo_C M (i := 3) (j := 7) eq_refl eq_refl); right; exact L). vm_compute in C. discriminate.
Qed.
