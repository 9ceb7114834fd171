(** The layers of the meshes build for every size: typed versions of their connection lists, and the
    check that every port of every component is used exactly once. *)
From Coq Require Import Permutation.
From Verif Require Import Base PyStr PyStrProofs NetModel NetSpec LinkProofs NetProofs WireProofs OrderProofs TypedNet TermProofs NetBuild MeshModel MeshNet MeshBuild.
Set Implicit Arguments.
Unset Strict Implicit.
Local Open Scope string_scope.
Local Open Scope list_scope.
Local Open Scope nat_scope.

Notation nmzi i := ("mzi" ++ di i)%string.
Notation nwg i := ("wg" ++ di i)%string.

Ltac eqt := first [reflexivity | lia | progress f_equal; eqt].
Ltac inl := first [left; solve [eqt] | right; inl].
(** [i]: which element of a range; [q]: its rank in a range of step 2. *)
Ltac rng q := first [apply in_seq; lia | apply range2_In; exists q; split; lia].
Ltac inr i q := first
  [ apply in_flat_map; exists i; split; [rng q | inl]
  | apply in_map_iff; exists i; split; [eqt | rng q]
  | inl ].
Ltac tin i q := first [ solve [inr i q] | apply in_or_app; first [left; solve [tin i q] | right; tin i q] ].
Ltac wit t i q := exists t; split; [tin i q | cbn [tends]; inl].
Ltac num n k i q := exists n, k; tin i q.
Ltac lens := rewrite ?flat_map_app, ?flat_flat, ?flat_of_map, ?map_app, ?list_sum_app, ?app_length;
  repeat match goal with |- context [length (flat_map ?f ?l)] =>
    first [rewrite (@len_flat _ _ f 4 l) by reflexivity | rewrite (@len_flat _ _ f 3 l) by reflexivity
          |rewrite (@len_flat _ _ f 2 l) by reflexivity | rewrite (@len_flat _ _ f 1 l) by reflexivity
          |rewrite (@len_flat _ _ f 0 l) by reflexivity] end;
  rewrite ?seq_length, ?range2_len; cbn [flat_map app length tends tnum].

Section L.
Variables (X D : Type) (x0 : X) (d0 : D).
Notation buf := (buf X D).
Variables wg mzi : nat -> buf.
Hypothesis Hwg : forall i, leaf_ok 2 (wg i).
Hypothesis Hmzi : forall i, leaf_ok 4 (mzi i).

Lemma fd_wg i : fd (wg i) = 2. Proof. apply (leaf_fd (Hwg i)). Qed.
Lemma fd_mzi i : fd (mzi i) = 4. Proof. apply (leaf_fd (Hmzi i)). Qed.
Lemma sum_wg p n : list_sum (map (fun nc => fd (snd nc)) (many p n wg)) = 2 * n.
Proof. apply many_sum. intros; apply fd_wg. Qed.
Lemma sum_mzi p n : list_sum (map (fun nc => fd (snd nc)) (many p n mzi)) = 4 * n.
Proof. apply many_sum. intros; apply fd_mzi. Qed.

Lemma wg_leaf n i : good_name n -> good_name n /\ exists k, 0 < k /\ leaf_ok k (wg i).
Proof. intros H. split; [exact H|]. exists 2. split; [lia|apply Hwg]. Qed.
Lemma mzi_leaf n i : good_name n -> good_name n /\ exists k, 0 < k /\ leaf_ok k (mzi i).
Proof. intros H. split; [exact H|]. exists 4. split; [lia|apply Hmzi]. Qed.

(** * _PhaseArray *)
Definition t_phase (N : nat) : list tconn :=
  flat_map (fun i => [TE (nwg i) 0 i; TE (nwg i) 1 (N + i)]) (seq 0 N).

Lemma phase_str N : phase_array_conns N = map tstr (t_phase N).
Proof. unfold phase_array_conns, t_phase. rewrite map_of_flat. apply flat_map_ext. reflexivity. Qed.

Definition phase_mods N : list (string * buf) := many "wg" N wg.

Theorem phase_builds N : 1 <= N ->
  exists b cs, phase_array x0 d0 N wg = Ok b /\ flat_of x0 d0 (phase_mods N) (t_phase N) (2 * N) cs b.
Proof.
  intros HN. unfold phase_array. rewrite phase_str. apply flat_net.
  - apply many_NoDup.
  - intros n c H. apply many_In in H. destruct H as (i & _ & -> & ->). apply wg_leaf, good_wg.
  - intros n c k H Hk. apply many_In in H. destruct H as (i & Hi & -> & ->). rewrite fd_wg in Hk. unfold t_phase.
    destruct k as [|[|k]]; [| |lia].
    + wit (TE (nwg i) 0 i) i 0.
    + wit (TE (nwg i) 1 (N + i)) i 0.
  - unfold t_phase, phase_mods. rewrite sum_wg. lens. lia.
  - intros j Hj. unfold t_phase. destruct (Nat.lt_ge_cases j N) as [H|H].
    + num (nwg j) 0 j 0.
    + num (nwg (j - N)) 1 (j - N) 0.
  - unfold t_phase. lens. lia.
  - destruct N; [lia|discriminate].
Qed.

(** * _MixingPhaseArrayClements *)
Definition t_mixc (N : nat) : list tconn :=
  flat_map (fun i => [TW (nmzi i) 1 (nwg (2 * i)) 0; TW (nmzi i) 2 (nwg (2 * i + 1)) 0]) (seq 0 (N / 2))
  ++ (if odd_n N then [TW "wg_" 1 (nwg (N - 1)) 0] else [])
  ++ flat_map (fun i => [TE (nmzi i) 0 (2 * i); TE (nmzi i) 3 (2 * i + 1)]) (seq 0 (N / 2))
  ++ (if odd_n N then [TE "wg_" 0 (N - 1)] else [])
  ++ map (fun i => TE (nwg i) 1 (N + i)) (seq 0 N).

Lemma map_if {A B} (f : A -> B) (c : bool) l r : map f (if c then l else r) = if c then map f l else map f r.
Proof. now destruct c. Qed.

Lemma mixc_str N : mixing_clements_conns N = map tstr (t_mixc N).
Proof.
  unfold mixing_clements_conns, t_mixc. rewrite !map_app, !map_of_flat, !map_if, !map_map.
  repeat first [reflexivity | f_equal].
Qed.

Definition mixc_mods N : list (string * buf) :=
  many "wg" N wg ++ many "mzi" (N / 2) mzi ++ (if odd_n N then [("wg_", wg N)] else []).

Lemma wg_mzi i j : nwg i <> nmzi j. Proof. discriminate. Qed.
Lemma wg_wg_ i : nwg i <> "wg_".
Proof. intros E. change "wg_" with ("wg" ++ "_")%string in E. apply append_inj in E. revert E. apply di_not. reflexivity. Qed.

Lemma mixc_mods_nodup N : NoDup (map fst (mixc_mods N)).
Proof.
  unfold mixc_mods. rewrite !map_app. apply NoDup_app'; [apply many_NoDup|apply NoDup_app'|].
  - apply many_NoDup.
  - destruct (odd_n N); repeat constructor; intros [].
  - intros x Hx Hy. apply many_fst in Hx. destruct Hx as (i & _ & ->). destruct (odd_n N); [|destruct Hy].
    destruct Hy as [Hy|[]]. cbn in Hy. discriminate Hy.
  - intros x Hx Hy. apply many_fst in Hx. destruct Hx as (i & _ & ->). apply in_app_or in Hy. destruct Hy as [Hy|Hy].
    + apply many_fst in Hy. destruct Hy as (j & _ & E). apply (wg_mzi E).
    + destruct (odd_n N); [|destruct Hy]. destruct Hy as [Hy|[]]. cbn [fst] in Hy. symmetry in Hy. apply (wg_wg_ Hy).
Qed.

Theorem mixc_builds N : 1 <= N ->
  exists b cs, mixing_clements x0 d0 N wg mzi = Ok b /\ flat_of x0 d0 (mixc_mods N) (t_mixc N) (2 * N) cs b.
Proof.
  intros HN. unfold mixing_clements. rewrite mixc_str. apply flat_net.
  - apply mixc_mods_nodup.
  - intros n c H. apply in_app_or in H. destruct H as [H|H]; [|apply in_app_or in H; destruct H as [H|H]].
    + apply many_In in H. destruct H as (i & _ & -> & ->). apply wg_leaf, good_wg.
    + apply many_In in H. destruct H as (i & _ & -> & ->). apply mzi_leaf, good_mzi.
    + destruct (odd_n N); [|destruct H]. destruct H as [[= <- <-]|[]]. apply wg_leaf, good_wg_.
  - intros n c k H Hk. unfold t_mixc. unfold mixc_mods in H. destruct (parity N) as (h & r & EN & Hr & E2 & _ & Ho). rewrite E2, Ho in *.
    apply in_app_or in H. destruct H as [H|H]; [|apply in_app_or in H; destruct H as [H|H]].
    + apply many_In in H. destruct H as (i & Hi & -> & ->). rewrite fd_wg in Hk.
      destruct k as [|[|k]]; [| |lia].
      * destruct (parity i) as (q & s & Ei & Hs & _). destruct s as [|[|s]]; [| |lia].
        -- destruct (Nat.lt_ge_cases q h) as [H|H].
           ++ wit (TW (nmzi q) 1 (nwg i) 0) q 0.
           ++ destruct r as [|[|r]]; [lia| |lia]. cbn [Nat.eqb]. wit (TW "wg_" 1 (nwg i) 0) 0 0.
        -- wit (TW (nmzi q) 2 (nwg i) 0) q 0.
      * wit (TE (nwg i) 1 (N + i)) i 0.
    + apply many_In in H. destruct H as (i & Hi & -> & ->). rewrite fd_mzi in Hk.
      destruct k as [|[|[|[|k]]]]; [| | | |lia].
      * wit (TE (nmzi i) 0 (2 * i)) i 0.
      * wit (TW (nmzi i) 1 (nwg (2 * i)) 0) i 0.
      * wit (TW (nmzi i) 2 (nwg (2 * i + 1)) 0) i 0.
      * wit (TE (nmzi i) 3 (2 * i + 1)) i 0.
    + destruct r as [|[|r]]; [destruct H| |lia]. cbn [Nat.eqb] in *. destruct H as [[= <- <-]|[]]. rewrite fd_wg in Hk.
      destruct k as [|[|k]]; [| |lia].
      * wit (TE "wg_" 0 (N - 1)) 0 0.
      * wit (TW "wg_" 1 (nwg (N - 1)) 0) 0 0.
  - unfold t_mixc, mixc_mods. destruct (parity N) as (h & r & EN & Hr & -> & _ & ->). lens. rewrite sum_wg, sum_mzi.
    destruct r as [|[|r]]; cbn [Nat.eqb]; lens; cbn [map snd list_sum fold_right]; rewrite ?fd_wg. all: lia.
  - intros j Hj. unfold t_mixc. destruct (parity N) as (h & r & EN & Hr & -> & _ & ->).
    destruct (Nat.lt_ge_cases j N) as [H|H].
    + destruct (parity j) as (q & s & Ej & Hs & _). destruct (Nat.lt_ge_cases q h) as [Hq|Hq].
      * destruct s as [|[|s]]; [| |lia].
        -- num (nmzi q) 0 q 0.
        -- num (nmzi q) 3 q 0.
      * destruct r as [|[|r]]; [lia| |lia]. cbn [Nat.eqb]. num "wg_" 0 0 0.
    + num (nwg (j - N)) 1 (j - N) 0.
  - unfold t_mixc. destruct (parity N) as (h & r & EN & Hr & -> & _ & ->). lens.
    destruct r as [|[|r]]; cbn [Nat.eqb]; lens; lia.
  - intros E. apply app_eq_nil in E as [_ E]. apply app_eq_nil in E as [_ E]. apply app_eq_nil in E as [_ E].
    apply app_eq_nil in E as [_ E]. destruct N; [lia|discriminate].
Qed.

(** * _Capacity2ClementsNxN *)
Definition t_cap2 (N : nat) : list tconn :=
  [TW (nmzi 0) 1 (nwg 0) 0]
  ++ flat_map (fun i => [TW (nmzi (i - 1)) 2 (nmzi i) 0; TW (nmzi i) 3 (nmzi (i + 1)) 1]) (py_range 1 (N - 1 - 1) 2)
  ++ (if (1 <? N - 1) && odd_n N then [TW (nmzi (N - 1 - 2)) 2 (nmzi (N - 1 - 1)) 0] else [])
  ++ (if odd_n N then [TW (nwg 1) 1 (nmzi (N - 2)) 3] else [TW (nmzi (N - 2)) 2 (nwg 1) 0])
  ++ flat_map (fun i => [TE (nmzi i) 0 i; TE (nmzi i) 3 (i + 1)]) (py_range 0 (N - 1) 2)
  ++ (if odd_n N then [TE (nwg 1) 0 (N - 1)] else [])
  ++ [TE (nwg 0) 1 N]
  ++ flat_map (fun i => [TE (nmzi i) 1 (N + i); TE (nmzi i) 2 (N + i + 1)]) (py_range 1 (N - 1) 2)
  ++ (if odd_n N then [] else [TE (nwg 1) 1 (2 * N - 1)]).

Lemma cap2_str N : cap2_conns N N = map tstr (t_cap2 N).
Proof.
  unfold cap2_conns, t_cap2. cbv zeta. rewrite !map_app, !map_of_flat, !map_if.
  repeat first [reflexivity | f_equal].
Qed.

Definition cap2_mods N : list (string * buf) := many "mzi" (N - 1) mzi ++ [("wg1", wg 0); ("wg0", wg 0)].

Lemma cap2_k N : 2 <= N -> exists i,
  last_opt (seq 0 (N - 1) ++ py_range 1 (N - 1 - 1) 2 ++ py_range 0 (N - 1) 2) = Some i /\ i + 2 + N mod 2 = N.
Proof.
  intros HN. destruct (parity N) as (h & r & EN & Hr & _ & -> & _). exists (2 * (h - 1)). split; [|lia].
  assert (HL : last_opt (py_range 0 (N - 1) 2) = Some (2 * (h - 1))) by (apply last_range2; lia).
  assert (Hne : py_range 0 (N - 1) 2 <> []) by (intros E; rewrite E in HL; discriminate).
  rewrite !last_opt_app; auto. intros E. apply app_eq_nil in E. tauto.
Qed.

Lemma in_wgs n c : In (n, c) [("wg1", wg 0); ("wg0", wg 0)] -> (n = nwg 0 \/ n = nwg 1) /\ c = wg 0.
Proof. intros [[= <- <-]|[[= <- <-]|[]]]; auto. Qed.

Theorem cap2_builds N : 2 <= N ->
  exists b cs, cap2_clements x0 d0 N wg mzi = Ok b /\ flat_of x0 d0 (cap2_mods N) (t_cap2 N) (2 * N) cs b.
Proof.
  intros HN. unfold cap2_clements. cbv zeta. destruct (cap2_k HN) as (i0 & -> & Ek). cbn [of_option bind]. rewrite Ek, cap2_str.
  clear i0 Ek. apply flat_net.
  - unfold cap2_mods. rewrite map_app. apply NoDup_app'; [apply many_NoDup| |].
    + repeat constructor; intros H; cbn in H; intuition discriminate.
    + intros x Hx Hy. apply many_fst in Hx. destruct Hx as (i & _ & ->). cbn in Hy. intuition discriminate.
  - intros n c H. apply in_app_or in H. destruct H as [H|H].
    + apply many_In in H. destruct H as (i & _ & -> & ->). apply mzi_leaf, good_mzi.
    + apply in_wgs in H. destruct H as [[-> | ->] ->]; apply wg_leaf, good_wg.
  - intros n c k H Hk. unfold t_cap2. destruct (parity N) as (h & r & EN & Hr & E2 & _ & Ho). rewrite Ho.
    apply in_app_or in H. destruct H as [H|H].
    + apply many_In in H. destruct H as (i & Hi & -> & ->). rewrite fd_mzi in Hk.
      destruct (parity i) as (q & s & Ei & Hs & _). destruct s as [|[|s]]; [| |lia].
      * (* even *)
        destruct k as [|[|[|[|k]]]]; [| | | |lia].
        -- wit (TE (nmzi i) 0 i) i q.
        -- destruct q as [|q].
           ++ wit (TW (nmzi i) 1 (nwg 0) 0) 0 0.
           ++ wit (TW (nmzi (i - 1)) 3 (nmzi i) 1) (i - 1) q.
        -- destruct (Nat.lt_ge_cases (i + 1) (N - 1 - 1)) as [H|H].
           ++ wit (TW (nmzi i) 2 (nmzi (i + 1)) 0) (i + 1) q.
           ++ destruct r as [|[|r]]; [| |lia]; cbn [Nat.eqb].
              ** wit (TW (nmzi i) 2 (nwg 1) 0) 0 0.
              ** rewrite (proj2 (Nat.ltb_lt 1 (N - 1))) by lia. cbn [andb]. wit (TW (nmzi i) 2 (nmzi (i + 1)) 0) 0 0.
        -- wit (TE (nmzi i) 3 (i + 1)) i q.
      * (* odd *)
        destruct k as [|[|[|[|k]]]]; [| | | |lia].
        -- destruct (Nat.lt_ge_cases i (N - 1 - 1)) as [H|H].
           ++ wit (TW (nmzi (i - 1)) 2 (nmzi i) 0) i q.
           ++ destruct r as [|[|r]]; [lia| |lia]; cbn [Nat.eqb].
              rewrite (proj2 (Nat.ltb_lt 1 (N - 1))) by lia. cbn [andb]. wit (TW (nmzi (i - 1)) 2 (nmzi i) 0) 0 0.
        -- wit (TE (nmzi i) 1 (N + i)) i q.
        -- wit (TE (nmzi i) 2 (N + i + 1)) i q.
        -- destruct (Nat.lt_ge_cases i (N - 1 - 1)) as [H|H].
           ++ wit (TW (nmzi i) 3 (nmzi (i + 1)) 1) i q.
           ++ destruct r as [|[|r]]; [lia| |lia]; cbn [Nat.eqb]. wit (TW (nwg 1) 1 (nmzi i) 3) 0 0.
    + apply in_wgs in H. destruct H as [Hn ->]. rewrite fd_wg in Hk. destruct k as [|[|k]]; [| |lia]; destruct Hn as [-> | ->].
      * wit (TW (nmzi 0) 1 (nwg 0) 0) 0 0.
      * destruct r as [|[|r]]; [| |lia]; cbn [Nat.eqb].
        -- wit (TW (nmzi (N - 2)) 2 (nwg 1) 0) 0 0.
        -- wit (TE (nwg 1) 0 (N - 1)) 0 0.
      * wit (TE (nwg 0) 1 N) 0 0.
      * destruct r as [|[|r]]; [| |lia]; cbn [Nat.eqb].
        -- wit (TE (nwg 1) 1 (2 * N - 1)) 0 0.
        -- wit (TW (nwg 1) 1 (nmzi (N - 2)) 3) 0 0.
  - unfold t_cap2, cap2_mods. destruct (parity N) as (h & r & EN & Hr & _ & _ & ->). lens. rewrite sum_mzi.
    destruct (parity (N - 1 - 0 + 1)) as (h1 & r1 & E1 & Hr1 & -> & _).
    destruct (parity (N - 1 - 1 - 1 + 1)) as (h2 & r2 & E2 & Hr2 & -> & _).
    destruct (parity (N - 1 - 1 + 1)) as (h3 & r3 & E3 & Hr3 & -> & _).
    cbn [map snd list_sum fold_right]. rewrite !fd_wg.
    destruct (Nat.ltb_spec 1 (N - 1)); destruct r as [|[|r]]; cbn [Nat.eqb andb]; lens; lia.
  - intros j Hj. unfold t_cap2. destruct (parity N) as (h & r & EN & Hr & _ & _ & ->).
    destruct (Nat.lt_ge_cases j N) as [H|H].
    + destruct (parity j) as (q & s & Ej & Hs & _). destruct (Nat.lt_ge_cases q h) as [Hq|Hq].
      * destruct s as [|[|s]]; [| |lia].
        -- num (nmzi j) 0 j q.
        -- num (nmzi (j - 1)) 3 (j - 1) q.
      * destruct r as [|[|r]]; [lia| |lia]. cbn [Nat.eqb]. num (nwg 1) 0 0 0.
    + destruct (Nat.eq_dec j N) as [->|Hne]; [num (nwg 0) 1 0 0|].
      destruct (parity (j - N)) as (q & s & Ej & Hs & _). destruct s as [|[|s]]; [| |lia].
      * num (nmzi (j - N - 1)) 2 (j - N - 1) (q - 1).
      * destruct (Nat.lt_ge_cases (j - N) (N - 1)) as [Hl|Hl].
        -- num (nmzi (j - N)) 1 (j - N) q.
        -- destruct r as [|[|r]]; [|lia|lia]. cbn [Nat.eqb]. num (nwg 1) 1 0 0.
  - unfold t_cap2. destruct (parity N) as (h & r & EN & Hr & _ & _ & ->). lens.
    destruct (parity (N - 1 - 0 + 1)) as (h1 & r1 & E1 & Hr1 & -> & _).
    destruct (parity (N - 1 - 1 - 1 + 1)) as (h2 & r2 & E2 & Hr2 & -> & _).
    destruct (parity (N - 1 - 1 + 1)) as (h3 & r3 & E3 & Hr3 & -> & _).
    destruct (Nat.ltb_spec 1 (N - 1)); destruct r as [|[|r]]; cbn [Nat.eqb andb]; lens; lia.
  - discriminate.
Qed.

(** * _ReckNxN *)
Definition t_reck1 (N : nat) : list tconn :=
  map (fun i => TW (nmzi i) 3 (nmzi (i + 1)) 1) (seq 0 (N - 1 - 1))
  ++ [TW (nmzi (N - 2)) 3 "wg" 1]
  ++ map (fun i => TE (nmzi i) 0 i) (seq 0 (N - 1))
  ++ [TE "wg" 0 (N - 1)]
  ++ [TE (nmzi 0) 1 N]
  ++ map (fun i => TE (nmzi i) 2 (N + i + 1)) (seq 0 (N - 1)).

Lemma reck1_str N : 2 <= N -> reck_layer_conns N (N - 2) = map tstr (t_reck1 N).
Proof.
  intros HN. unfold reck_layer_conns, t_reck1. cbv zeta. rewrite !map_app, !map_map.
  replace (Z.of_nat (N - 1) - 1)%Z with (Z.of_nat (N - 2)) by lia. rewrite <- dec_nat_Z.
  replace (N - 2 + 1) with (N - 1) by lia.
  repeat first [reflexivity | f_equal].
Qed.

Definition reck1_mods N : list (string * buf) := many "mzi" (N - 1) mzi ++ [("wg", wg 0)].

Theorem reck1_builds N : 2 <= N ->
  exists b cs, reck_layer x0 d0 N wg mzi = Ok b /\ flat_of x0 d0 (reck1_mods N) (t_reck1 N) (2 * N) cs b.
Proof.
  intros HN. unfold reck_layer. cbv zeta. 
  assert (EL : last_opt (seq 0 (N - 1)) = Some (N - 2)) by (replace (N - 1) with (S (N - 2)) by lia; apply last_seq).
  rewrite EL. cbn [of_option bind].
  rewrite reck1_str by exact HN. apply flat_net.
  - unfold reck1_mods. rewrite map_app. apply NoDup_app'; [apply many_NoDup| |].
    + repeat constructor. intros [].
    + intros x Hx Hy. apply many_fst in Hx. destruct Hx as (i & _ & ->). cbn in Hy. intuition discriminate.
  - intros n c H. apply in_app_or in H. destruct H as [H|H].
    + apply many_In in H. destruct H as (i & _ & -> & ->). apply mzi_leaf, good_mzi.
    + destruct H as [[= <- <-]|[]]. apply wg_leaf, good_wg'.
  - intros n c k H Hk. unfold t_reck1. apply in_app_or in H. destruct H as [H|H].
    + apply many_In in H. destruct H as (i & Hi & -> & ->). rewrite fd_mzi in Hk.
      destruct k as [|[|[|[|k]]]]; [| | | |lia].
      * wit (TE (nmzi i) 0 i) i 0.
      * destruct i as [|i].
        -- wit (TE (nmzi 0) 1 N) 0 0.
        -- wit (TW (nmzi i) 3 (nmzi (S i)) 1) i 0.
      * wit (TE (nmzi i) 2 (N + i + 1)) i 0.
      * destruct (Nat.lt_ge_cases i (N - 1 - 1)) as [H|H].
        -- wit (TW (nmzi i) 3 (nmzi (i + 1)) 1) i 0.
        -- wit (TW (nmzi i) 3 "wg" 1) 0 0.
    + destruct H as [[= <- <-]|[]]. rewrite fd_wg in Hk. destruct k as [|[|k]]; [| |lia].
      * wit (TE "wg" 0 (N - 1)) 0 0.
      * wit (TW (nmzi (N - 2)) 3 "wg" 1) 0 0.
  - unfold t_reck1, reck1_mods. lens. rewrite sum_mzi. cbn [map snd list_sum fold_right]. rewrite fd_wg. lia.
  - intros j Hj. unfold t_reck1. destruct (Nat.lt_ge_cases j (N - 1)) as [H|H]; [num (nmzi j) 0 j 0|].
    destruct (Nat.eq_dec j (N - 1)) as [->|Hne]; [num "wg" 0 0 0|].
    destruct (Nat.eq_dec j N) as [->|Hne']; [num (nmzi 0) 1 0 0|].
    num (nmzi (j - N - 1)) 2 (j - N - 1) 0.
  - unfold t_reck1. lens. lia.
  - unfold t_reck1. intros E. apply app_eq_nil in E as [_ E]. discriminate.
Qed.

(** * _MixingPhaseArrayRings *)
Definition t_mixr (N : nat) : list tconn :=
  flat_map (fun i => [TW (nmzi i) 3 (nwg (2 * i)) 0; TW (nmzi i) 2 (nwg (2 * i + 1)) 0]) (seq 0 (N / 2))
  ++ flat_map (fun i => [TE (nmzi i) 0 (2 * i); TE (nmzi i) 1 (2 * i + 1)]) (seq 0 (N / 2))
  ++ map (fun i => TE (nwg i) 1 (N + i)) (seq 0 N).

Lemma mixr_str N : mixing_rings_conns N = map tstr (t_mixr N).
Proof.
  unfold mixing_rings_conns, t_mixr. rewrite !map_app, !map_of_flat, !map_map.
  repeat first [reflexivity | f_equal].
Qed.

Definition mixr_mods N : list (string * buf) := many "wg" N wg ++ many "mzi" (N / 2) mzi.

Theorem mixr_builds h : 1 <= h ->
  exists b cs, mixing_rings x0 d0 (2 * h) wg mzi = Ok b /\ flat_of x0 d0 (mixr_mods (2 * h)) (t_mixr (2 * h)) (2 * (2 * h)) cs b.
Proof.
  intros HN. unfold mixing_rings. destruct (even_split h) as [Eo E2]. rewrite Eo, mixr_str.
  apply flat_net; unfold t_mixr, mixr_mods; rewrite ?E2.
  - rewrite map_app. apply NoDup_app'; [apply many_NoDup|apply many_NoDup|].
    intros x Hx Hy. apply many_fst in Hx. destruct Hx as (i & _ & ->). apply many_fst in Hy. destruct Hy as (j & _ & E). discriminate E.
  - intros n c H. apply in_app_or in H. destruct H as [H|H].
    + apply many_In in H. destruct H as (i & _ & -> & ->). apply wg_leaf, good_wg.
    + apply many_In in H. destruct H as (i & _ & -> & ->). apply mzi_leaf, good_mzi.
  - intros n c k H Hk. apply in_app_or in H. destruct H as [H|H].
    + apply many_In in H. destruct H as (i & Hi & -> & ->). rewrite fd_wg in Hk.
      destruct k as [|[|k]]; [| |lia].
      * destruct (parity i) as (q & s & Ei & Hs & _). destruct s as [|[|s]]; [| |lia].
        -- wit (TW (nmzi q) 3 (nwg i) 0) q 0.
        -- wit (TW (nmzi q) 2 (nwg i) 0) q 0.
      * wit (TE (nwg i) 1 (2 * h + i)) i 0.
    + apply many_In in H. destruct H as (i & Hi & -> & ->). rewrite fd_mzi in Hk.
      destruct k as [|[|[|[|k]]]]; [| | | |lia].
      * wit (TE (nmzi i) 0 (2 * i)) i 0.
      * wit (TE (nmzi i) 1 (2 * i + 1)) i 0.
      * wit (TW (nmzi i) 2 (nwg (2 * i + 1)) 0) i 0.
      * wit (TW (nmzi i) 3 (nwg (2 * i)) 0) i 0.
  - lens. rewrite sum_wg, sum_mzi. lia.
  - intros j Hj. destruct (Nat.lt_ge_cases j (2 * h)) as [H|H].
    + destruct (parity j) as (q & s & Ej & Hs & _). destruct s as [|[|s]]; [| |lia].
      * num (nmzi q) 0 q 0.
      * num (nmzi q) 1 q 0.
    + num (nwg (j - 2 * h)) 1 (j - 2 * h) 0.
  - lens. lia.
  - intros E. apply app_eq_nil in E as [_ E]. apply app_eq_nil in E as [_ E]. destruct h; [lia|discriminate].
Qed.

(** * _UnclosedRingArray *)
Definition t_uncl (h : nat) : list tconn :=
  [TW (nwg 0) 0 (nmzi 0) 3]
  ++ flat_map (fun i => [TW (nmzi i) 0 (nmzi (i - 1)) 2; TW (nmzi i) 3 (nmzi (i + 1)) 3]) (py_range 1 (2 * h - 1) 2)
  ++ [TW (nwg 1) 0 (nmzi (2 * h - 2)) 2]
  ++ flat_map (fun i => [TE (nmzi i) 0 i; TE (nmzi i) 1 (i + 1)]) (py_range 0 (2 * h - 1) 2)
  ++ [TE (nwg 0) 1 (2 * h)]
  ++ flat_map (fun i => [TE (nmzi i) 1 (2 * h + i); TE (nmzi i) 2 (2 * h + i + 1)]) (py_range 1 (2 * h - 1) 2)
  ++ [TE (nwg 1) 1 (4 * h - 1)].

Lemma uncl_str h : 1 <= h -> unclosed_conns (2 * h) = map tstr (t_uncl h).
Proof.
  intros Hh. unfold unclosed_conns, t_uncl. cbv zeta. rewrite (proj2 (even_split h)). rewrite !map_app, !map_of_flat.
  replace (2 * Z.of_nat h - 1 - 1)%Z with (Z.of_nat (2 * h - 2)) by lia. rewrite <- dec_nat_Z.
  replace (4 * Z.of_nat h - 1)%Z with (Z.of_nat (4 * h - 1)) by lia. rewrite <- dec_nat_Z.
  repeat first [reflexivity | f_equal].
Qed.

Definition uncl_mods h : list (string * buf) := many "wg" 2 wg ++ many "mzi" (2 * h - 1) mzi.

Theorem uncl_builds h : 1 <= h ->
  exists b cs, unclosed_rings x0 d0 (2 * h) wg mzi = Ok b /\ flat_of x0 d0 (uncl_mods h) (t_uncl h) (2 * (2 * h)) cs b.
Proof.
  intros HN. unfold unclosed_rings. destruct (even_split h) as [Eo E2]. rewrite Eo, E2, uncl_str by exact HN.
  apply flat_net; unfold t_uncl, uncl_mods.
  - rewrite map_app. apply NoDup_app'; [apply many_NoDup|apply many_NoDup|].
    intros x Hx Hy. apply many_fst in Hx. destruct Hx as (i & _ & ->). apply many_fst in Hy. destruct Hy as (j & _ & E). discriminate E.
  - intros n c H. apply in_app_or in H. destruct H as [H|H].
    + apply many_In in H. destruct H as (i & _ & -> & ->). apply wg_leaf, good_wg.
    + apply many_In in H. destruct H as (i & _ & -> & ->). apply mzi_leaf, good_mzi.
  - intros n c k H Hk. apply in_app_or in H. destruct H as [H|H].
    + apply many_In in H. destruct H as (i & Hi & -> & ->). rewrite fd_wg in Hk.
      destruct k as [|[|k]]; [| |lia]; destruct i as [|[|i]]; try lia.
      * wit (TW (nwg 0) 0 (nmzi 0) 3) 0 0.
      * wit (TW (nwg 1) 0 (nmzi (2 * h - 2)) 2) 0 0.
      * wit (TE (nwg 0) 1 (2 * h)) 0 0.
      * wit (TE (nwg 1) 1 (4 * h - 1)) 0 0.
    + apply many_In in H. destruct H as (i & Hi & -> & ->). rewrite fd_mzi in Hk.
      destruct (parity i) as (q & s & Ei & Hs & _). destruct s as [|[|s]]; [| |lia].
      * destruct k as [|[|[|[|k]]]]; [| | | |lia].
        -- wit (TE (nmzi i) 0 i) i q.
        -- wit (TE (nmzi i) 1 (i + 1)) i q.
        -- destruct (Nat.lt_ge_cases (i + 1) (2 * h - 1)) as [H|H].
           ++ wit (TW (nmzi (i + 1)) 0 (nmzi i) 2) (i + 1) q.
           ++ wit (TW (nwg 1) 0 (nmzi i) 2) 0 0.
        -- destruct q as [|q].
           ++ wit (TW (nwg 0) 0 (nmzi i) 3) 0 0.
           ++ wit (TW (nmzi (i - 1)) 3 (nmzi i) 3) (i - 1) q.
      * destruct k as [|[|[|[|k]]]]; [| | | |lia].
        -- wit (TW (nmzi i) 0 (nmzi (i - 1)) 2) i q.
        -- wit (TE (nmzi i) 1 (2 * h + i)) i q.
        -- wit (TE (nmzi i) 2 (2 * h + i + 1)) i q.
        -- wit (TW (nmzi i) 3 (nmzi (i + 1)) 3) i q.
  - lens. rewrite sum_wg, sum_mzi.
    destruct (parity (2 * h - 1 - 0 + 1)) as (h1 & r1 & F1 & Hr1 & -> & _).
    destruct (parity (2 * h - 1 - 1 + 1)) as (h2 & r2 & F2 & Hr2 & -> & _). lia.
  - intros j Hj. destruct (Nat.lt_ge_cases j (2 * h)) as [H|H].
    + destruct (parity j) as (q & s & Ej & Hs & _). destruct s as [|[|s]]; [| |lia].
      * num (nmzi j) 0 j q.
      * num (nmzi (j - 1)) 1 (j - 1) q.
    + destruct (Nat.eq_dec j (2 * h)) as [->|Hne]; [num (nwg 0) 1 0 0|].
      destruct (Nat.eq_dec j (4 * h - 1)) as [->|Hne']; [num (nwg 1) 1 0 0|].
      destruct (parity (j - 2 * h)) as (q & s & Ej & Hs & _). destruct s as [|[|s]]; [| |lia].
      * num (nmzi (j - 2 * h - 1)) 2 (j - 2 * h - 1) (q - 1).
      * num (nmzi (j - 2 * h)) 1 (j - 2 * h) q.
  - lens.
    destruct (parity (2 * h - 1 - 0 + 1)) as (h1 & r1 & F1 & Hr1 & -> & _).
    destruct (parity (2 * h - 1 - 1 + 1)) as (h2 & r2 & F2 & Hr2 & -> & _). lia.
  - discriminate.
Qed.

End L.
