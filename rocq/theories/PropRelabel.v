(** Properties C101 and C102: the same circuit declared in another way. *)
From Coq Require Import QArith Qcanon Ring Permutation.
From Verif Require Import Base PyStr NetModel NetSpec NetProofs WireProofs OrderProofs NetBuild StateProofs SimModel SimAlg SimSpec SimNodes SimProofs SimDelay SimRegular
  Gauss CircuitSpec CircuitProofs RingExample RelabelSpec Relabel Flatten.
Set Implicit Arguments.
Unset Strict Implicit.
Local Open Scope nat_scope.
Local Open Scope list_scope.

Section Props.
Variables (K : Type) (k0 k1 : K) (kadd kmul ksub : K -> K -> K) (kopp : K -> K).
Variable solve : nat -> nat -> mat K -> mat K -> option (mat K).
Variables (A : Type) (act : A -> nat -> field K -> A * field K).
Notation cx := (prod K K).
Notation net := (buf (nat -> cx) Q).
Notation comps := (list (string * net)).
Notation forward := (forward k0 k1 kadd kmul ksub kopp solve act).
Notation build := (@build (nat -> cx) Q (fun _ => c0 k0) 0%Q).
Notation net_buf := (@net_buf (nat -> cx) Q (fun _ => c0 k0) 0%Q).
Notation "l !! t" := (nth t l (zero_field k0)) (at level 20).

(** [R] relates the ports of [b] to those of [b']: with equal sources at related ports, related detectors record the
    same, and if [b] can be simulated so can [b']. *)
Record agree (e : env) (b b' : net) (R : nat -> nat -> Prop) : Prop := {
  ag_all : forall i, i < b_np b -> exists i', i' < b_np b' /\ R i i';
  ag_onto : forall i', i' < b_np b' -> exists i, i < b_np b /\ R i i';
  ag_flags : forall i i', R i i' -> b_src b' i' = b_src b i /\ b_det b' i' = b_det b i;
  ag_out : forall s0 s1 source source' outs outs' w c, w < e_num_wl e ->
    (forall t i i', R i i' -> b_src b i = true ->
       at_ (source' t) w (rank (b_src b') i') c = at_ (source t) w (rank (b_src b) i) c) ->
    forward e b s0 source = Ok outs -> forward e b' s1 source' = Ok outs' ->
    forall t p p', t < e_num_t e -> R p p' -> b_det b p = true ->
      at_ (outs' !! t) w (rank (b_det b') p') c = at_ (outs !! t) w (rank (b_det b) p) c;
  ag_ok : forall s0 s1 source source' outs, solver_complete k0 kadd kmul solve -> timed e -> terminated b = true -> num_det b <> 0 ->
    forward e b s0 source = Ok outs -> exists outs', forward e b' s1 source' = Ok outs' /\ length outs' = e_num_t e }.

Section Ring.
Hypothesis KR : ring_theory k0 k1 kadd kmul ksub kopp (@eq K).
Hypothesis SS : solver_sound k0 kadd kmul solve.
Hypothesis SR : solver_regular k0 kadd kmul solve.

Lemma relabel_agree e (b b' : net) f g (R : nat -> nat -> Prop) : relabels f g b b' -> flags_ok b -> num_act b = 0 ->
  (forall w, w < e_num_wl e -> unmixed k0 e b w) -> (forall i i', R i i' -> i < b_np b /\ i' = f i) -> (forall i, i < b_np b -> R i (f i)) ->
  agree e b b' R.
Proof.
  intros H FO NA U HR HT. pose proof (proj1 (flags_separate b) FO) as Sep. constructor.
  - intros i Li. exists (f i). split; [rewrite (rl_np H); now apply (rl_f H)|auto].
  - intros i' Li. rewrite (rl_np H) in Li. destruct (rl_g H Li) as [G1 G2]. exists (g i'). split; [exact G1|]. rewrite <- G2 at 2. auto.
  - intros i i' Ri. destruct (HR i i' Ri) as [Li ->]. destruct (rl_at H Li) as (E1 & E2 & _). auto.
  - intros s0 s1 source source' outs outs' w c Lw Hs HF HF' t p p' Lt Rp Dp. destruct (HR p p' Rp) as [Lp ->].
    apply (rl_forward KR H SS SR (act := act) (source := source) (source' := source') (s0 := s0) (s1 := s1) (e := e)); auto.
  - intros s0 s1 source source' outs SC HT' T D HF. exact (rl_succeeds KR H SR s1 source' SC HT' Sep T D U HF).
Qed.

(** * C101 *)

(** Port [q] of component [n] here, port [q] of component [h n] there. *)
Definition corresponds (h : string -> string) (cs cs' : comps) (i i' : nat) : Prop :=
  exists n c q, located cs i n c q /\ located cs' i' (h n) c q.

Lemma build_flags (mods : comps) conns b : build mods conns = Ok b -> flags_ok b.
Proof.
  intros Hb. destruct (build_inv Hb) as (cs & _ & Hn). unfold NetModel.net_buf in Hn. apply bind_Ok in Hn. destruct Hn as (o & _ & Hn).
  apply bind_Ok in Hn. destruct Hn as (C & _ & Hn). exact (check_flags Hn).
Qed.

(** Links in any order and from either end, components under any names. *)
Theorem C101_same_links (e : env) h hi (mods mods' : comps) conns conns' b b' :
  (forall n c, In (n, c) mods \/ In (n, c) mods' -> order_ok c) ->
  (forall n c, assoc String.eqb n mods = Some c -> hi (h n) = n /\ (py_int n = None -> py_int (h n) = None) /\ assoc String.eqb (h n) mods' = Some c) ->
  (forall m c, assoc String.eqb m mods' = Some c -> h (hi m) = m /\ (py_int m = None -> py_int (hi m) = None) /\ assoc String.eqb (hi m) mods = Some c) ->
  same_links h hi conns conns' ->
  (forall n c w, In (n, c) mods -> w < e_num_wl e -> unmixed k0 e c w) -> num_act b = 0 ->
  build mods conns = Ok b -> build mods' conns' = Ok b' ->
  exists cs cs', sub_components mods conns cs /\ sub_components mods' conns' cs' /\ agree e b b' (corresponds h cs cs').
Proof.
  intros OK M1 M2 SK U NA Hb Hb'.
  assert (SM : same_mods h hi (fun _ i => i) (fun _ i => i) mods mods').
  { split.
    - intros n c E. destruct (M1 n c E) as (E1 & E2 & E3). repeat split; auto. exists c. split; [exact E3|apply stands_id].
    - intros n c E. destruct (M2 n c E) as (E1 & E2 & E3). repeat split; auto. exists c. split; [exact E3|apply stands_id]. }
  destruct (build_inv Hb) as (cs & H & Nb), (build_inv Hb') as (cs' & H' & Nb').
  destruct (same_relabel (fun n c I => OK n c (or_introl I)) (fun n c I => OK n c (or_intror I)) SM SK H H' Nb Nb') as (R & M & HF).
  exists cs, cs'. split; [exact H|]. split; [exact H'|].
  apply relabel_agree with (f := move h (fun _ i => i) cs cs') (g := move hi (fun _ i => i) cs' cs).
  - exact R.
  - exact (build_flags Hb).
  - exact NA.
  - intros w Lw. apply (build_unmixed Hb). intros n c I. now apply (U n c w).
  - intros i i' (n & c & q & L & L'). split; [rewrite (proj1 (proj2 (proj2 (net_buf_inv Nb)))); exact (located_lt L)|].
    symmetry. exact (move_located (h := h) (fs := fun _ i => i) (sc_once H') L L').
  - intros i Li. destruct (located_total (built_net (sc_once H) Nb) Li) as (n & c & q & L). exists n, c, q. split; [exact L|].
    destruct (there (sc_once H') M L) as (c' & _ & L'). destruct (mods_parts SM SK H H' (located_In L)) as (_ & c2 & I2 & _).
    pose proof (sc_from H (located_In L)) as E1. pose proof (sc_from H' (located_In L')) as E2. destruct (M1 n c E1) as (_ & _ & E3).
    assert (E4 : Some c' = Some c) by exact (eq_trans (eq_sym E2) E3). injection E4 as ->. exact L'.
Qed.

(** If all free ports of a network have external numbers, it can be declared in another way inside a bigger network, too. *)
Theorem C101_external (h hi : string -> string) (mods mods' cs cs' : comps) conns conns' es es' b b' :
  (forall n c, In (n, c) mods \/ In (n, c) mods' -> b_order c = seq 0 (b_np c)) ->
  (forall n c, assoc String.eqb n mods = Some c -> hi (h n) = n /\ (py_int n = None -> py_int (h n) = None) /\ assoc String.eqb (h n) mods' = Some c) ->
  (forall m c, assoc String.eqb m mods' = Some c -> h (hi m) = m /\ (py_int m = None -> py_int (hi m) = None) /\ assoc String.eqb (hi m) mods = Some c) ->
  same_links h hi conns conns' -> sub_components mods conns cs -> sub_components mods' conns' cs' ->
  net_buf cs (map clean_conn conns) = Ok b -> net_buf cs' (map clean_conn conns') = Ok b' ->
  ext_list cs (map clean_conn conns) es -> ext_list cs' (map clean_conn conns') es' -> numbered es (total_ports cs) -> numbered es' (total_ports cs') ->
  (forall p, p < b_np b -> unconnected b p <-> In p (map snd es)) ->
  exists f g, stands_for f g b b'.
Proof.
  intros OK M1 M2 SK H H' Nb Nb' X1 X1' X2 X2' X3.
  apply (@same_stands _ k0 h hi (fun _ i => i) (fun _ i => i) mods mods' cs cs' conns conns' es es'); auto. split.
  - intros n c E. destruct (M1 n c E) as (E1 & E2 & E3). repeat split; auto. exists c. split; [exact E3|apply stands_id].
  - intros n c E. destruct (M2 n c E) as (E1 & E2 & E3). repeat split; auto. exists c. split; [exact E3|apply stands_id].
Qed.

(** * C102 *)

Lemma assoc_both (P : string -> net -> net -> Prop) (l l' : comps) : Forall2 (fun x x' => fst x' = fst x /\ P (fst x) (snd x) (snd x')) l l' -> forall n,
  (forall c, assoc String.eqb n l = Some c -> exists c', assoc String.eqb n l' = Some c' /\ P n c c') /\
  (forall c', assoc String.eqb n l' = Some c' -> exists c, assoc String.eqb n l = Some c /\ P n c c').
Proof.
  induction 1 as [|[n1 c1] [n2 c2] l l' [E1 E2] F IH]; intros n; [split; discriminate|]. cbn in E1, E2. subst n2. cbn [assoc].
  destruct (String.eqb_spec n n1) as [->|NE]; [|apply IH]. split; intros c E; injection E as <-; eauto.
Qed.

(** A component or subnetwork can be replaced by one that differs only in the numbers of its ports. *)
Theorem C102_substitute (e : env) (fs gs : string -> nat -> nat) (mods mods' : comps) conns b b' :
  (forall n c, In (n, c) mods \/ In (n, c) mods' -> order_ok c) ->
  Forall2 (fun x x' => fst x' = fst x /\ stands_for (fs (fst x)) (gs (fst x)) (snd x) (snd x')) mods mods' ->
  (forall n c w, In (n, c) mods -> w < e_num_wl e -> unmixed k0 e c w) -> num_act b = 0 ->
  build mods conns = Ok b -> build mods' conns = Ok b' ->
  exists cs cs', sub_components mods conns cs /\ sub_components mods' conns cs'
    /\ agree e b b' (fun i i' => exists n c c' q, located cs i n c q /\ located cs' i' n c' (fs n q)).
Proof.
  intros OK F2 U NA Hb Hb'.
  assert (SM : same_mods (fun n => n) (fun n => n) fs gs mods mods').
  { split; intros n c E; (split; [reflexivity|]); (split; [auto|]); [exact (proj1 (@assoc_both (fun n => stands_for (fs n) (gs n)) _ _ F2 n) c E)|exact (proj2 (@assoc_both (fun n => stands_for (fs n) (gs n)) _ _ F2 n) c E)]. }
  assert (SK : same_links (fun n => n) (fun n => n) conns conns).
  { assert (HS : forall c, In c conns -> same_link (fun n => n) c c).
    { destruct (build_inv Hb) as (cs & H & Nb). destruct (ext_list_of_build (sc_once H) Nb) as (es & HE). intros c I.
      assert (I' : In (clean_conn c) (map clean_conn conns)) by (now apply in_map).
      pose proof (split_clean c) as SC.
      assert (HC : length (split_colon (clean_conn c)) = 4 \/ exists p z, numbers cs (clean_conn c) p z).
      { clear Nb. induction HE as [|c' cn p' z' es' N HE IH|c' cn es' L HE IH]; [destruct I'| |]; (destruct I' as [->|I']; [eauto|auto]). }
      destruct HC as [L|(p & z & n & s0 & k & t & E & E1 & E2 & _)].
      - destruct (built_wires Nb I' L) as (i & j & n1 & s1 & z1 & n2 & s2 & z2 & W & W1 & W2 & _). rewrite SC in W.
        apply sl_wire with (n1 := n1) (p1 := s1) (n2 := n2) (p2 := s2); auto; congruence.
      - rewrite SC in E. apply sl_ext with (n := n) (p := s0) (z := t); auto; congruence. }
    split; intros c I; exists c; auto. }
  destruct (build_inv Hb) as (cs & H & Nb), (build_inv Hb') as (cs' & H' & Nb').
  destruct (same_relabel (fun n c I => OK n c (or_introl I)) (fun n c I => OK n c (or_intror I)) SM SK H H' Nb Nb') as (R & M & HF).
  exists cs, cs'. split; [exact H|]. split; [exact H'|].
  apply relabel_agree with (f := move (fun n => n) fs cs cs') (g := move (fun n => n) gs cs' cs).
  - exact R.
  - exact (build_flags Hb).
  - exact NA.
  - intros w Lw. apply (build_unmixed Hb). intros n c I. now apply (U n c w).
  - intros i i' (n & c & c' & q & L & L'). split; [rewrite (proj1 (proj2 (proj2 (net_buf_inv Nb)))); exact (located_lt L)|].
    symmetry. exact (move_located (h := fun n => n) (fs := fs) (sc_once H') L L').
  - intros i Li. destruct (located_total (built_net (sc_once H) Nb) Li) as (n & c & q & L).
    destruct (there (sc_once H') M L) as (c' & _ & L'). exists n, c, c', q. auto.
Qed.

(** A network with a subnetwork [n] behaves like the network of all the components, which declares the links of both. *)
Theorem C102_flatten (e : env) (cs ccs fs : comps) n child b b' conns cconns fconns :
  NoDup (map fst cs) -> NoDup (map fst ccs) -> NoDup (map fst fs) -> orders_ok ccs -> orders_ok fs ->
  net_buf ccs cconns = Ok child -> net_buf cs conns = Ok b ->
  net_buf fs fconns = Ok b' -> In (n, child) cs ->
  (forall m, In m (map fst ccs) -> ~ In m (map fst cs) \/ m = n) ->
  (forall m c, In (m, c) fs <-> In (m, c) ccs \/ m <> n /\ In (m, c) cs) ->
  flattens ccs n child conns cconns fconns ->
  (forall m c w, In (m, c) fs -> w < e_num_wl e -> unmixed k0 e c w) -> num_act b = 0 ->
  agree e b b' (fun i i' => exists m c q, part_of cs n ccs i m c q /\ located fs i' m c q).
Proof.
  intros ND NDc NDf HOc HOf Hc Hb Hf Hn HD HP HF U NA.
  destruct (flat_relabel ND NDc NDf HOc HOf Hc Hb Hf Hn HD HP HF) as (f & g & R & HL).
  assert (TT : forall i, i < b_np b -> exists m c q, part_of cs n ccs i m c q).
  { intros i Li. destruct (located_total (built_net ND Hb) Li) as (m & c & q & L). destruct (string_dec m n) as [->|NE].
    - pose proof (part_unique ND (located_In L) Hn) as ->. assert (Lq : q < b_np child) by (destruct L as (? & ? & _ & _ & Lq); exact Lq).
      destruct (located_total (built_net NDc Hc) Lq) as (m & d & r & L2). exists m, d, r. right. eauto.
    - exists m, c, q. left. auto. }
  apply relabel_agree with (f := f) (g := g).
  - exact R.
  - unfold NetModel.net_buf in Hb. apply bind_Ok in Hb. destruct Hb as (o & _ & Hb). apply bind_Ok in Hb. destruct Hb as (C & _ & Hb). exact (check_flags Hb).
  - exact NA.
  - intros w Lw. eapply net_unmixed; [exact Hb|]. intros m c I. destruct (string_dec m n) as [->|NE].
    + pose proof (part_unique ND I Hn) as ->. eapply net_unmixed; [exact Hc|]. intros m d Id. apply (U m d w); [apply HP; now left|exact Lw].
    + apply (U m c w); [apply HP; now right|exact Lw].
  - intros i i' (m & c & q & L & L'). split.
    + rewrite (proj1 (proj2 (proj2 (net_buf_inv Hb)))). destruct L as [[_ L]|(d & r & L & _)]; exact (located_lt L).
    + pose proof (HL i m c q L) as L2. exact (located_same NDf L' L2).
  - intros i Li. destruct (TT i Li) as (m & c & q & L). exists m, c, q. split; [exact L|]. now apply HL.
Qed.
End Ring.
End Props.

(** * Examples and refutations *)
Local Open Scope string_scope.
Local Notation id_s := (fun n : string => n).

(** The ring of [RingExample] under other names, with its links in another order and from the other ends. *)
Definition other_name (n : string) : string :=
  if String.eqb n "s" then "in" else if String.eqb n "dc" then "c" else if String.eqb n "wg" then "w" else "out".
Definition first_name (n : string) : string :=
  if String.eqb n "in" then "s" else if String.eqb n "c" then "dc" else if String.eqb n "w" then "wg" else "d".
Definition other_parts : list (string * net Qc) := [("out", q_det); ("w", q_wg 1%Q); ("c", q_dc); ("in", q_src)].
Definition other_wires : list string := ["c:3:w: 1"; "out:0:c:1"; "in:0:c:0"; "w:0:c:2"].
Ltac wire := eapply sl_wire; [reflexivity|discriminate|discriminate|(left; reflexivity) || (right; reflexivity)].
Ltac pick := first [eexists; split; [left; reflexivity|wire]|eexists; split; [right; left; reflexivity|wire]|eexists; split; [right; right; left; reflexivity|wire]|eexists; split; [right; right; right; left; reflexivity|wire]].
Example C101_ex : same_links other_name first_name ring_wires other_wires
  /\ (forall n c, assoc String.eqb n ring_parts = Some c -> first_name (other_name n) = n /\ (py_int n = None -> py_int (other_name n) = None) /\ assoc String.eqb (other_name n) other_parts = Some c)
  /\ (forall m c, assoc String.eqb m other_parts = Some c -> other_name (first_name m) = m /\ (py_int m = None -> py_int (first_name m) = None) /\ assoc String.eqb (first_name m) ring_parts = Some c)
  /\ (forall n c, In (n, c) ring_parts \/ In (n, c) other_parts -> order_ok c)
  /\ (forall n c w, In (n, c) ring_parts -> w < 2 -> unmixed qc0 (tenv 2) c w)
  /\ (exists b b', qbuild ring_parts ring_wires = Ok b /\ qbuild other_parts other_wires = Ok b' /\ num_act b = 0 /\ terminated b = true).
Proof.
  split; [|split; [|split; [|split; [|split]]]].
  - split; intros c I; repeat (destruct I as [<-|I]; [pick|]); destruct I.
  - intros n c. cbn [ring_parts assoc]. repeat (match goal with |- context [String.eqb n ?y] => destruct (String.eqb_spec n y) as [->|] end; [intros E; injection E as <-; split; [reflexivity|split; [intros _; reflexivity|reflexivity]]|]). discriminate.
  - intros n c. cbn [other_parts assoc]. repeat (match goal with |- context [String.eqb n ?y] => destruct (String.eqb_spec n y) as [->|] end; [intros E; injection E as <-; split; [reflexivity|split; [intros _; reflexivity|reflexivity]]|]). discriminate.
  - intros n c [I|I]; repeat (destruct I as [E|I]; [injection E as _ <-; apply Permutation_refl|]); destruct I.
  - intros n c w I Lw. apply unmixedb_ok. repeat (destruct I as [E|I]; [injection E as _ <-; destruct w as [|[|w]]; [vm_compute; reflexivity..|lia]|]); destruct I.
  - destruct (qbuild ring_parts ring_wires) as [b|] eqn:E; [|vm_compute in E; discriminate]. destruct (qbuild other_parts other_wires) as [b'|] eqn:E'; [|vm_compute in E'; discriminate].
    exists b, b'. repeat split; vm_compute in E; injection E as <-; vm_compute; reflexivity.
Qed.

(** The channels of the detectors are in the order of the links, so the result as a tensor does depend on that order. *)
Definition split_parts : list (string * net Qc) := [("s", q_src); ("dc", q_dc); ("d1", q_det); ("d2", q_det); ("d3", q_det)].
Definition split_wires : list string := ["s:0:dc:0"; "dc:1:d1:0"; "dc:2:d2:0"; "dc:3:d3:0"].
Definition split_wires' : list string := ["s:0:dc:0"; "dc:2:d2:0"; "dc:1:d1:0"; "dc:3:d3:0"].
Theorem C101_channels_refuted : exists b b' outs outs', same_links id_s id_s split_wires split_wires'
  /\ qbuild split_parts split_wires = Ok b /\ qbuild split_parts split_wires' = Ok b' /\ num_src b = 1
  /\ qforward fenv b always = Ok outs /\ qforward fenv b' always = Ok outs'
  /\ at_ (nth 0 outs (zero_field qc0)) 0 0 0 <> at_ (nth 0 outs' (zero_field qc0)) 0 0 0.
Proof.
  destruct (qbuild split_parts split_wires) as [b|] eqn:E; [|vm_compute in E; discriminate].
  destruct (qbuild split_parts split_wires') as [b'|] eqn:E'; [|vm_compute in E'; discriminate].
  assert (HB : match qbuild split_parts split_wires with Ok b => num_src b = 1 /\ match qforward fenv b always with Ok o => this (fst (at_ (nth 0 o (zero_field qc0)) 0 0 0)) = (3 # 5)%Q | _ => False end | _ => False end) by (vm_compute; auto).
  assert (HB' : match qbuild split_parts split_wires' with Ok b => match qforward fenv b always with Ok o => this (fst (at_ (nth 0 o (zero_field qc0)) 0 0 0)) = 0%Q | _ => False end | _ => False end) by (vm_compute; reflexivity).
  rewrite E in HB. rewrite E' in HB'. destruct HB as [N HB]. destruct (qforward fenv b always) as [o|] eqn:F; [|destruct HB]. destruct (qforward fenv b' always) as [o'|] eqn:F'; [|destruct HB'].
  exists b, b', o, o'. repeat (split; [first [assumption|reflexivity|split; intros c I; repeat (destruct I as [<-|I]; [pick|]); destruct I]|]).
  intros EQ. rewrite EQ, HB' in HB. discriminate.
Qed.

(** The ring without source and detector as a subnetwork, its links in two orders. *)
Local Notation qnet_buf := (@net_buf (nat -> Qc * Qc) Q zs 0%Q).
Definition sub_parts : list (string * net Qc) := [("dc", q_dc); ("wg", q_wg 1%Q)].
Definition sub_parts' : list (string * net Qc) := [("wg", q_wg 1%Q); ("dc", q_dc)].
Definition sub_wires : list string := ["dc:2:wg:0"; "wg:1:dc:3"; "dc:0:0"; "dc:1:1"].
Definition sub_wires' : list string := ["wg:1:dc:3"; "dc:1:1"; "dc:0:0"; "wg:0:dc:2"].
Definition sub_ring : net Qc := match qnet_buf sub_parts sub_wires with Ok b => b | Err _ => q_dc end.
Definition sub_ring' : net Qc := match qnet_buf sub_parts' sub_wires' with Ok b => b | Err _ => q_dc end.
Lemma sub_ring_ok : qnet_buf sub_parts sub_wires = Ok sub_ring.
Proof. unfold sub_ring. destruct (qnet_buf sub_parts sub_wires) eqn:E; [reflexivity|vm_compute in E; discriminate]. Qed.
Lemma sub_ring_ok' : qnet_buf sub_parts' sub_wires' = Ok sub_ring'.
Proof. unfold sub_ring'. destruct (qnet_buf sub_parts' sub_wires') eqn:E; [reflexivity|vm_compute in E; discriminate]. Qed.
Lemma sub_once : NoDup (map fst sub_parts) /\ NoDup (map fst sub_parts').
Proof. split; repeat constructor; cbn; intuition discriminate. Qed.
Ltac used := intros n; split; [cbn [map fst In]; intros [<-|[<-|[]]]; (split; [reflexivity|eexists; split; [left; reflexivity|cbn; tauto]])
  |intros [E (c & I & J)]; repeat (destruct I as [<-|I]; [cbn in J; repeat (destruct J as [<-|J]; [cbn; first [tauto|discriminate E]|]); destruct J|]); destruct I].
Ltac ext := constructor; [apply parse_output_Some; [assumption|reflexivity]|].
Example C101_external_ex :
  same_links id_s id_s sub_wires sub_wires'
  /\ (forall n c, In (n, c) sub_parts \/ In (n, c) sub_parts' -> b_order c = seq 0 (b_np c))
  /\ (forall n, assoc String.eqb n sub_parts' = assoc String.eqb n sub_parts)
  /\ sub_components sub_parts sub_wires sub_parts /\ sub_components sub_parts' sub_wires' sub_parts'
  /\ qnet_buf sub_parts (map clean_conn sub_wires) = Ok sub_ring /\ qnet_buf sub_parts' (map clean_conn sub_wires') = Ok sub_ring'
  /\ ext_list sub_parts (map clean_conn sub_wires) [(0%Z, 0); (1%Z, 1)] /\ ext_list sub_parts' (map clean_conn sub_wires') [(1%Z, 3); (0%Z, 2)]
  /\ numbered [(0%Z, 0); (1%Z, 1)] (total_ports sub_parts) /\ numbered [(1%Z, 3); (0%Z, 2)] (total_ports sub_parts')
  /\ (forall p, p < b_np sub_ring -> unconnected sub_ring p <-> In p (map snd [(0%Z, 0); (1%Z, 1)])).
Proof.
  destruct sub_once as [N1 N2]. split; [|split; [|split; [|split; [|split; [|split; [|split; [|split; [|split; [|split; [|split]]]]]]]]]].
  - split; intros c I; repeat (destruct I as [<-|I]; [first [pick|match goal with |- exists c', In c' _ /\ same_link _ ?c c' => exists c; split; [cbn; tauto|eapply sl_ext; [reflexivity|discriminate|discriminate|reflexivity]] end]|]); destruct I.
  - intros n c [I|I]; repeat (destruct I as [E|I]; [injection E as _ <-; reflexivity|]); destruct I.
  - intros n. cbn [sub_parts sub_parts' assoc]. destruct (String.eqb_spec n "wg") as [->|]; [reflexivity|]. reflexivity.
  - constructor; [exact N1| |used]. intros n c I; repeat (destruct I as [E|I]; [injection E as <- <-; reflexivity|]); destruct I.
  - constructor; [exact N2| |]. { intros n c I; repeat (destruct I as [E|I]; [injection E as <- <-; reflexivity|]); destruct I. } used.
  - exact sub_ring_ok.
  - exact sub_ring_ok'.
  - change (map clean_conn sub_wires) with sub_wires. unfold sub_wires. apply el_wire; [reflexivity|]. apply el_wire; [reflexivity|]. ext. ext. constructor.
  - change (map clean_conn sub_wires') with sub_wires'. unfold sub_wires'. apply el_wire; [reflexivity|]. ext. ext. apply el_wire; [reflexivity|]. constructor.
  - constructor; cbn; [apply Permutation_refl|repeat constructor; cbn; intuition lia|intros z p [E|[E|[]]]; injection E as <- <-; lia].
  - constructor; cbn; [apply perm_swap|repeat constructor; cbn; intuition lia|intros z p [E|[E|[]]]; injection E as <- <-; lia].
  - intros p Lp. rewrite <- free_at_spec. change (b_np sub_ring) with 6 in Lp. cbn [map snd In].
    do 6 (destruct p as [|p]; [vm_compute; intuition (discriminate || lia)|]). lia.
Qed.
Print Assumptions C101_same_links.
Print Assumptions C101_external.
Print Assumptions C101_channels_refuted.

(** The two subnetworks stand for each other, so either can be used between source and detector ... *)
Lemma sub_stands : exists f g, stands_for f g sub_ring sub_ring'.
Proof.
  destruct C101_external_ex as (H1 & H2 & H3 & H4 & H5 & H6 & H7 & H8 & H9 & H10 & H11 & H12).
  apply (@C101_external _ qc0 id_s id_s sub_parts sub_parts' sub_parts sub_parts' sub_wires sub_wires' [(0%Z, 0); (1%Z, 1)] [(1%Z, 3); (0%Z, 2)]); auto.
  - intros n c E. split; [reflexivity|]. split; [auto|]. exact (eq_trans (H3 n) E).
  - intros n c E. split; [reflexivity|]. split; [auto|]. exact (eq_trans (eq_sym (H3 n)) E).
Qed.
Definition around (r : net Qc) : list (string * net Qc) := [("s", q_src); ("ring", r); ("d", q_det)].
Definition around_wires : list string := ["s:0:ring:0"; "ring:1:d:0"].
Example C102_substitute_ex : exists fs gs b b',
  Forall2 (fun x x' => fst x' = fst x /\ stands_for (fs (fst x)) (gs (fst x)) (snd x) (snd x')) (around sub_ring) (around sub_ring')
  /\ (forall n c, In (n, c) (around sub_ring) \/ In (n, c) (around sub_ring') -> order_ok c)
  /\ (forall n c w, In (n, c) (around sub_ring) -> w < 2 -> unmixed qc0 (tenv 2) c w)
  /\ qbuild (around sub_ring) around_wires = Ok b /\ qbuild (around sub_ring') around_wires = Ok b' /\ num_act b = 0 /\ terminated b = true.
Proof.
  destruct sub_stands as (f & g & SF).
  destruct (qbuild (around sub_ring) around_wires) as [b|] eqn:E; [|vm_compute in E; discriminate].
  destruct (qbuild (around sub_ring') around_wires) as [b'|] eqn:E'; [|vm_compute in E'; discriminate].
  exists (fun n => if String.eqb n "ring" then f else fun i => i), (fun n => if String.eqb n "ring" then g else fun i => i), b, b'.
  split; [|split; [|split; [|split; [reflexivity|split; [reflexivity|]]]]].
  - constructor; [split; [reflexivity|apply stands_id]|]. constructor; [split; [reflexivity|exact SF]|]. constructor; [split; [reflexivity|apply stands_id]|constructor].
  - assert (O1 : order_ok sub_ring) by (unfold order_ok; vm_compute; apply Permutation_refl).
    assert (O2 : order_ok sub_ring').
    { unfold order_ok. replace (b_order sub_ring') with [2; 3; 0; 1; 4; 5] by (vm_compute; reflexivity). change (b_np sub_ring') with 6.
      change [2; 3; 0; 1; 4; 5] with ([2; 3] ++ [0; 1] ++ [4; 5])%list. apply Permutation_app_swap_app. }
    intros n c [I|I]; repeat (destruct I as [X|I]; [injection X as _ <-; first [assumption|apply Permutation_refl]|]); destruct I.
  - intros n c w I Lw. apply unmixedb_ok. repeat (destruct I as [X|I]; [injection X as _ <-; destruct w as [|[|w]]; [vm_compute; reflexivity..|lia]|]); destruct I.
  - vm_compute in E. injection E as <-. vm_compute. auto.
Qed.

(** ... and the circuit is the ring of [RingExample]. *)
Example C102_flatten_ex : exists b b',
  qnet_buf (around sub_ring) around_wires = Ok b /\ qnet_buf sub_parts sub_wires = Ok sub_ring /\ qnet_buf ring_parts ring_wires = Ok b'
  /\ NoDup (map fst (around sub_ring)) /\ NoDup (map fst sub_parts) /\ NoDup (map fst ring_parts)
  /\ orders_ok sub_parts /\ orders_ok ring_parts
  /\ (forall m, In m (map fst sub_parts) -> ~ In m (map fst (around sub_ring)) \/ m = "ring")
  /\ (forall m c, In (m, c) ring_parts <-> In (m, c) sub_parts \/ m <> "ring" /\ In (m, c) (around sub_ring))
  /\ flattens sub_parts "ring" sub_ring around_wires sub_wires ring_wires
  /\ (forall m c w, In (m, c) ring_parts -> w < 2 -> unmixed qc0 (tenv 2) c w) /\ num_act b = 0.
Proof.
  destruct (qnet_buf (around sub_ring) around_wires) as [b|] eqn:E; [|vm_compute in E; discriminate].
  destruct (qnet_buf ring_parts ring_wires) as [b'|] eqn:E'; [|vm_compute in E'; discriminate].
  exists b, b'. split; [reflexivity|]. split; [exact sub_ring_ok|]. split; [reflexivity|].
  split; [repeat constructor; cbn; intuition discriminate|]. split; [exact (proj1 sub_once)|]. split; [repeat constructor; cbn; intuition discriminate|].
  split; [intros n c I; repeat (destruct I as [X|I]; [injection X as _ <-; apply Permutation_refl|]); destruct I|].
  split; [intros n c I; repeat (destruct I as [X|I]; [injection X as _ <-; apply Permutation_refl|]); destruct I|].
  split; [cbn; intros m [<-|[<-|[]]]; left; intuition discriminate|].
  assert (L1 : flat_link sub_parts "ring" sub_ring "s:0:ring:0" "s:0:dc:0").
  { exists "s", "0", 0%Z, "ring", "0", 0%Z, "s", "0", 0%Z, "dc", "0", 0%Z. repeat (split; [reflexivity|]). split; [constructor; discriminate|].
    apply (@fe_in _ sub_parts "ring" sub_ring 0%Z "dc" 0%Z 0); [apply resolves_index; reflexivity|apply names_b_iff; [exact (proj1 sub_once)|reflexivity]]. }
  assert (L2 : flat_link sub_parts "ring" sub_ring "ring:1:d:0" "dc:1:d:0").
  { exists "ring", "1", 1%Z, "d", "0", 0%Z, "dc", "1", 1%Z, "d", "0", 0%Z. repeat (split; [reflexivity|]). split; [|constructor; discriminate].
    apply (@fe_in _ sub_parts "ring" sub_ring 1%Z "dc" 1%Z 1); [apply resolves_index; reflexivity|apply names_b_iff; [exact (proj1 sub_once)|reflexivity]]. }
  split; [|split; [|split]].
  - intros m c. cbn [ring_parts sub_parts around In]. split.
    + intros H. repeat (destruct H as [H|H]; [injection H as <- <-; first [left; tauto|right; split; [discriminate|tauto]]|]). destruct H.
    + intros [H|[NE H]]; repeat (destruct H as [H|H]; [injection H as <- <-; first [tauto|congruence]|]); destruct H.
  - constructor.
    + intros c I _. destruct I as [<-|[<-|[]]]; [exists "s:0:dc:0"|exists "dc:1:d:0"]; (split; [cbn; tauto|assumption]).
    + intros c I L. repeat (destruct I as [<-|I]; [first [cbn; tauto|discriminate L]|]). destruct I.
    + intros c I L. repeat (destruct I as [<-|I]; [first [right; cbn; tauto|left; exists "s:0:ring:0"; split; [cbn; tauto|assumption]|left; exists "ring:1:d:0"; split; [cbn; tauto|assumption]]|]). destruct I.
  - intros n c w I Lw. apply unmixedb_ok. repeat (destruct I as [X|I]; [injection X as _ <-; destruct w as [|[|w]]; [vm_compute; reflexivity..|lia]|]); destruct I.
  - vm_compute in E. injection E as <-. vm_compute. reflexivity.
Qed.

(** Networks of subnetworks that stand for each other need not stand for each other: the numbers of the parent's ports go
    through the subnetwork's port order twice (C05). *)
Definition oneway (i j : nat) (o : list nat) : net Qc :=
  {| b_np := 2; b_C := fun _ _ => false; b_src := no; b_det := no; b_act := no; b_order := o;
     b_S := fun a b => if (Nat.eqb a i && Nat.eqb b j)%bool then cst qc1 qc0 else zs; b_del := fun _ => 0%Q |}.
Theorem C102_deeper_refuted : exists c c' f g b b', stands_for f g c c' /\ order_ok c /\ order_ok c'
  /\ qbuild [("a", c)] ["a:1:0"; "a:0:1"] = Ok b /\ qbuild [("a", c')] ["a:1:0"; "a:0:1"] = Ok b'
  /\ ~ exists f' g', stands_for f' g' b b'.
Proof.
  exists (oneway 0 1 [0; 1]), (oneway 1 0 [1; 0]), (fun i => 1 - i), (fun i => 1 - i). eexists _, _.
  split; [|split; [|split; [|split; [vm_compute; reflexivity|split; [vm_compute; reflexivity|]]]]].
  - split; [constructor|].
    + reflexivity.
    + cbn [oneway b_np]. intros i Li. lia.
    + cbn [oneway b_np]. intros i Li. lia.
    + reflexivity.
    + cbn. intros i j w Li Lj. destruct i as [|[|i]]; [| |lia]; (destruct j as [|[|j]]; [| |lia]); reflexivity.
    + auto.
    + intros fl H. apply free_list_iff in H. subst fl. apply free_list_iff. reflexivity.
  - apply Permutation_refl.
  - apply perm_swap.
  - intros (f & g & R & F). pose proof (fun i j w => @rl_S _ _ _ _ _ R i j w) as HS. pose proof (fun i => @rl_f _ _ _ _ _ R i) as Hf. cbn in HS, Hf.
    destruct (Hf 0 ltac:(lia)) as [L0 G0], (Hf 1 ltac:(lia)) as [L1 G1].
    specialize (HS 0 1 0 ltac:(lia) ltac:(lia)). apply (f_equal fst), (f_equal this) in HS.
    assert (F0 : f 0 = 1 /\ f 1 = 0).
    { destruct (f 0) as [|[|x]]; [| |lia]; (destruct (f 1) as [|[|y]]; [| |lia]); auto; vm_compute in HS; discriminate. }
    destruct F0 as [F0 F1]. pose proof (fun fl => F fl) as FF. cbn in FF.
    specialize (FF [1; 0]). cbn [map] in FF. rewrite F0, F1 in FF. rewrite !free_list_iff in FF. specialize (FF eq_refl). vm_compute in FF. discriminate.
Qed.
Print Assumptions C102_substitute.
Print Assumptions C102_flatten.
Print Assumptions C102_deeper_refuted.
