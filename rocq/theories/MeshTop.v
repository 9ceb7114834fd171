(** ClementsNxN, ReckNxN and RingNetwork, and their [terminate()]. *)
From Coq Require Import Permutation.
From Verif Require Import Base PyStr PyStrProofs NetModel NetSpec LinkProofs NetProofs WireProofs OrderProofs TypedNet TermProofs NetBuild MeshModel MeshNet MeshBuild MeshLayers MeshChain.
Set Implicit Arguments.
Unset Strict Implicit.
Local Open Scope string_scope.
Local Open Scope list_scope.
Local Open Scope nat_scope.

Section T.
Variables (X D : Type) (x0 : X) (d0 : D).
Notation buf := (buf X D).
Notation comps := (list (string * buf)).

Definition getb (r : res buf) (d : buf) : buf := match r with Ok b => b | Err _ => d end.
Lemma getb_Ok r d b : r = Ok b -> r = Ok (getb r d). Proof. intros ->. reflexivity. Qed.

Lemma layers_Ok n (f : nat -> res buf) L : (forall i, i < n -> f i = Ok (L i)) -> layers n f = Ok (many "layer" n L).
Proof.
  unfold layers, many. intros H.
  assert (HG : forall l, (forall i, In i l -> i < n) ->
    mapM (fun i => do b <- f i; Ok ((nlay i)%string, b)) l = Ok (map (fun i => ((nlay i)%string, L i)) l)).
  { induction l as [|i l IH]; intros Hl; [reflexivity|]. cbn [mapM map]. rewrite H by (apply Hl; now left). cbn [bind].
    rewrite IH by (intros; apply Hl; now right). reflexivity. }
  apply HG. intros i Hi. apply in_seq in Hi. lia.
Qed.

Lemma many_snoc p n (L : nat -> buf) : many p (S n) L = many p n L ++ [((p ++ di n)%string, L n)].
Proof. unfold many. rewrite seq_S, map_app. reflexivity. Qed.
Lemma many_ext p n (L L' : nat -> buf) : (forall i, i < n -> L i = L' i) -> many p n L = many p n L'.
Proof. intros H. unfold many. apply map_ext_in. intros i Hi. apply in_seq in Hi. now rewrite H by lia. Qed.

(** Parts built as networks in which every port is wired or numbered. *)
Definition built (mods : comps) (ts : list tconn) (m : nat) (b : buf) : Prop := exists cs, flat_of x0 d0 mods ts m cs b.
Lemma built_part mods ts m b : built mods ts m b -> part_ok b /\ fd b = m.
Proof. intros (cs & H). split; [apply (fo_part H)|apply (fo_fd H)]. Qed.

Section Mesh.
Variables wg mzi : nat -> nat -> buf.
Hypothesis Hwg : forall l i, leaf_ok 2 (wg l i).
Hypothesis Hmzi : forall l i, leaf_ok 4 (mzi l i).

Lemma cap_half c : 2 <= c -> 1 <= c / 2.
Proof. intros H. destruct (parity c) as (h & r & E & Hr & -> & _). lia. Qed.
Lemma cap_low c : c < 2 -> c / 2 = 0.
Proof. intros H. apply Nat.div_small. exact H. Qed.

(** The layers of a Clements mesh. *)
Definition clements_last N c (b : buf) : Prop :=
  if odd_n c then built (mixc_mods (wg (c / 2)) (mzi (c / 2)) N) (t_mixc N) (2 * N) b
  else built (phase_mods (wg (c / 2)) N) (t_phase N) (2 * N) b.

Theorem clements_builds N c : 2 <= N -> 2 <= c -> exists b L, clements x0 d0 N c wg mzi = Ok b
  /\ (forall i, i < c / 2 -> built (cap2_mods (wg i) (mzi i) N) (t_cap2 N) (2 * N) (L i))
  /\ clements_last N c (L (c / 2))
  /\ wired_of x0 d0 (many "layer" (S (c / 2)) L) (t_chain N (c / 2)) (chain_un N (c / 2)) b.
Proof.
  intros HN Hc. unfold clements. pose proof (cap_half Hc) as Hh. set (n := c / 2) in *.
  set (lastr := if odd_n c then mixing_clements x0 d0 N (wg n) (mzi n) else phase_array x0 d0 N (wg n)).
  assert (HL : exists b, lastr = Ok b /\ clements_last N c b).
  { unfold lastr, clements_last. fold n. destruct (odd_n c).
    - destruct (@mixc_builds X D x0 d0 (wg n) (mzi n) (Hwg n) (Hmzi n) N) as (b & cs & E & H); [lia|]. exists b. split; [exact E|]. now exists cs.
    - destruct (@phase_builds X D x0 d0 (wg n) (mzi n) (Hwg n) (Hmzi n) N) as (b & cs & E & H); [lia|]. exists b. split; [exact E|]. now exists cs. }
  destruct HL as (bl & El & Hl).
  set (L := fun i => if i <? n then getb (cap2_clements x0 d0 N (wg i) (mzi i)) bl else bl).
  assert (HLi : forall i, i < n -> cap2_clements x0 d0 N (wg i) (mzi i) = Ok (L i)
     /\ built (cap2_mods (wg i) (mzi i) N) (t_cap2 N) (2 * N) (L i)).
  { intros i Hi. unfold L. apply Nat.ltb_lt in Hi. rewrite Hi.
    destruct (@cap2_builds X D x0 d0 (wg i) (mzi i) (Hwg i) (Hmzi i) N HN) as (b & cs & E & H). rewrite E. cbn. split; [reflexivity|]. now exists cs. }
  assert (HLn : L n = bl) by (unfold L; rewrite (proj2 (Nat.ltb_ge n n)); auto).
  rewrite (@layers_Ok n _ L) by (intros i Hi; apply HLi; exact Hi). cbn [bind]. rewrite El. cbn [bind].
  rewrite <- HLn, <- many_snoc.
  destruct (@chain_builds X D x0 d0 N n L) as (b & Hb & Hw).
  - lia.
  - exact Hh.
  - intros i Hi. destruct (Nat.eq_dec i n) as [->|Hne].
    + rewrite HLn. unfold clements_last in Hl. destruct (odd_n c); eapply built_part; exact Hl.
    + eapply built_part. apply HLi. lia.
  - exists b, L. split; [exact Hb|]. split; [intros i Hi; apply HLi; exact Hi|]. split; [rewrite HLn; exact Hl|exact Hw].
Qed.

Theorem reck_builds N : 2 <= N -> exists b L, reck x0 d0 N wg mzi = Ok b
  /\ (forall m, m < N - 1 -> built (reck1_mods (wg m) (mzi m) (N - m)) (t_reck1 (N - m)) (2 * (N - m)) (L m))
  /\ wired_of x0 d0 (reck_mods N L (wg (N - 1) 0)) (t_reck N) (reck_un N) b.
Proof.
  intros HN. unfold reck.
  set (L := fun m => getb (reck_layer x0 d0 (N - m) (wg m) (mzi m)) (wg 0 0)).
  assert (HL : forall m, m < N - 1 -> reck_layer x0 d0 (N - m) (wg m) (mzi m) = Ok (L m)
     /\ built (reck1_mods (wg m) (mzi m) (N - m)) (t_reck1 (N - m)) (2 * (N - m)) (L m)).
  { intros m Hm. unfold L. destruct (@reck1_builds X D x0 d0 (wg m) (mzi m) (Hwg m) (Hmzi m) (N - m)) as (b & cs & E & H); [lia|].
    rewrite E. cbn. split; [reflexivity|]. now exists cs. }
  rewrite (@layers_Ok (N - 1) _ L) by (intros i Hi; apply HL; exact Hi). cbn [bind].
  destruct (@reck_wired X D x0 d0 N L (wg (N - 1) 0) HN) as (b & Hb & Hw).
  - intros m Hm. eapply built_part. apply HL. lia.
  - apply Hwg.
  - exists b, L. split; [exact Hb|]. split; [intros m Hm; apply HL; exact Hm|exact Hw].
Qed.

Theorem ring_builds h c : 1 <= h -> 2 <= c -> exists b L, ring_network x0 d0 (2 * h) c wg mzi = Ok b
  /\ (forall i, i < c / 2 -> built (uncl_mods (wg i) (mzi i) h) (t_uncl h) (2 * (2 * h)) (L i))
  /\ built (mixr_mods (wg (c / 2)) (mzi (c / 2)) (2 * h)) (t_mixr (2 * h)) (2 * (2 * h)) (L (c / 2))
  /\ wired_of x0 d0 (many "layer" (S (c / 2)) L) (t_chain (2 * h) (c / 2)) (chain_un (2 * h) (c / 2)) b.
Proof.
  intros HN Hc. unfold ring_network. rewrite (proj1 (even_split h)). pose proof (cap_half Hc) as Hh. set (n := c / 2) in *.
  destruct (@mixr_builds X D x0 d0 (wg n) (mzi n) (Hwg n) (Hmzi n) h HN) as (bl & csl & El & Hl).
  set (L := fun i => if i <? n then getb (unclosed_rings x0 d0 (2 * h) (wg i) (mzi i)) bl else bl).
  assert (HLi : forall i, i < n -> unclosed_rings x0 d0 (2 * h) (wg i) (mzi i) = Ok (L i)
     /\ built (uncl_mods (wg i) (mzi i) h) (t_uncl h) (2 * (2 * h)) (L i)).
  { intros i Hi. unfold L. apply Nat.ltb_lt in Hi. rewrite Hi.
    destruct (@uncl_builds X D x0 d0 (wg i) (mzi i) (Hwg i) (Hmzi i) h HN) as (b & cs & E & H). rewrite E. cbn [getb]. split; [reflexivity|]. now exists cs. }
  assert (HLn : L n = bl) by (unfold L; rewrite (proj2 (Nat.ltb_ge n n)); auto).
  assert (Hl' : built (mixr_mods (wg n) (mzi n) (2 * h)) (t_mixr (2 * h)) (2 * (2 * h)) bl) by now exists csl.
  rewrite (@layers_Ok n _ L) by (intros i Hi; apply HLi; exact Hi). cbn [bind]. rewrite El. cbn [bind].
  rewrite <- HLn, <- many_snoc.
  destruct (@chain_builds X D x0 d0 (2 * h) n L) as (b & Hb & Hw).
  - lia.
  - exact Hh.
  - intros i Hi. destruct (Nat.eq_dec i n) as [->|Hne].
    + rewrite HLn. eapply built_part; exact Hl'.
    + eapply built_part. apply HLi. lia.
  - exists b, L. split; [exact Hb|]. split; [intros i Hi; apply HLi; exact Hi|]. split; [rewrite HLn; exact Hl'|exact Hw].
Qed.

(** * Sizes that do not work *)
Lemma ring_odd N c : odd_n N = true -> ring_network x0 d0 N c wg mzi = Err ValueError.
Proof. intros H. unfold ring_network. rewrite H. reflexivity. Qed.

Lemma build_none (mods : comps) : build x0 d0 mods [] = Err AttributeError.
Proof. reflexivity. Qed.

Lemma clements_low N c : 1 <= N -> c < 2 -> clements x0 d0 N c wg mzi = Err AttributeError.
Proof.
  intros HN Hc. unfold clements. rewrite (cap_low Hc). cbn [layers seq mapM bind chain_conns flat_map app].
  destruct (odd_n c).
  - destruct (@mixc_builds X D x0 d0 (wg 0) (mzi 0) (Hwg 0) (Hmzi 0) N HN) as (b & cs & -> & _). cbn [bind]. apply build_none.
  - destruct (@phase_builds X D x0 d0 (wg 0) (mzi 0) (Hwg 0) (Hmzi 0) N HN) as (b & cs & -> & _). cbn [bind]. apply build_none.
Qed.
Lemma ring_low h c : 1 <= h -> c < 2 -> ring_network x0 d0 (2 * h) c wg mzi = Err AttributeError.
Proof.
  intros HN Hc. unfold ring_network. rewrite (proj1 (even_split h)), (cap_low Hc). cbn [layers seq mapM bind chain_conns flat_map app].
  destruct (@mixr_builds X D x0 d0 (wg 0) (mzi 0) (Hwg 0) (Hmzi 0) h HN) as (b & cs & -> & _). cbn [bind]. apply build_none.
Qed.
Lemma clements_small N c : N < 2 -> 2 <= c -> clements x0 d0 N c wg mzi = Err UnboundLocalError.
Proof.
  intros HN Hc. unfold clements. pose proof (cap_half Hc) as Hh. destruct (c / 2) as [|n]; [lia|].
  unfold layers. cbn [seq mapM]. destruct N as [|[|N]]; [reflexivity|reflexivity|lia].
Qed.
Lemma reck_small : (reck x0 d0 0 wg mzi = Err KeyError) /\ (reck x0 d0 1 wg mzi = Err KeyError).
Proof. split; reflexivity. Qed.
End Mesh.

(** * terminate() *)
Lemma num_count (b : buf) f : (forall i, i < b_np b -> f i = false) -> length (filter f (seq 0 (b_np b))) = 0.
Proof. intros H. rewrite filter_none; [reflexivity|]. intros i Hi. apply in_seq in Hi. apply H. lia. Qed.

Definition silent (b : buf) : Prop := forall i, i < b_np b -> b_src b i = false /\ b_det b i = false /\ b_act b i = false.

Lemma net_silent (cs : comps) conns b : net_buf x0 d0 cs conns = Ok b -> (forall n c, In (n, c) cs -> silent c) -> silent b.
Proof.
  intros Hb H i Hi. destruct (net_buf_inv Hb) as (_ & _ & Hnp & -> & -> & -> & _). rewrite Hnp in Hi.
  destruct (located_exists Hi) as (n & c & q & HL). pose proof HL as (pre & post & Hcs & _ & Hq).
  assert (Hin : In (n, c) cs) by (rewrite Hcs; apply in_elt).
  rewrite !(block_vec_located _ _ HL). now apply (H n c Hin).
Qed.

Lemma terms_one N (s d : buf) : one_port s -> one_port d -> forall t c, In (t, c) (mesh_terms N s d) -> good_name t /\ one_port c.
Proof.
  intros Hs Hd t c H. unfold mesh_terms in H. apply in_app_or in H. destruct H as [H|H]; apply many_In in H; destruct H as (i & _ & -> & ->).
  - split; [apply good_s|exact Hs].
  - split; [apply good_d|exact Hd].
Qed.

Lemma terms_names N (s d : buf) : NoDup (map fst (mesh_terms N s d)).
Proof.
  unfold mesh_terms. rewrite map_app. apply NoDup_app'; [apply many_NoDup|apply many_NoDup|].
  intros x Hx Hy. apply many_fst in Hx. destruct Hx as (i & _ & ->). apply many_fst in Hy. destruct Hy as (j & _ & E). discriminate E.
Qed.

Lemma terms_length N (s d : buf) : length (mesh_terms N s d) = 2 * N.
Proof. unfold mesh_terms, many. rewrite app_length, !map_length, !seq_length. lia. Qed.

Lemma many_count p n (c : buf) f k : f c = k -> list_sum (map (fun t => f (snd t)) (many p n (fun _ => c))) = n * k.
Proof.
  intros E. unfold many. rewrite map_map. cbn [snd]. rewrite E. clear E. rewrite <- (seq_length n 0) at 2. induction (seq 0 n) as [|i l IH]; [reflexivity|].
  cbn [map list_sum fold_right length]. fold (list_sum (map (fun _ : nat => k) l)). rewrite IH. cbn. lia.
Qed.

Lemma mesh_terminate_unnamed name N (s d b : buf) : name <> "base"%string ->
  mesh_terminate x0 d0 None name N s d b = mesh_close x0 d0 name N s d b.
Proof.
  intros H. apply terminate_list_unnamed. intros [E|E]; [exact (H E)|]. unfold mesh_terms in E. rewrite map_app in E.
  apply in_app_or in E. destruct E as [E|E]; apply many_fst in E; destruct E as (i & _ & E); discriminate E.
Qed.

(** A silent network with 2N free ports, closed by N sources and N detectors. *)
Theorem mesh_closed name N (b : buf) (s d : buf) :
  good_name name -> (forall i, name <> ("s" ++ di i)%string) -> (forall i, name <> ("d" ++ di i)%string) ->
  one_port s -> one_port d -> num_src s = 1 -> num_det s = 0 -> num_src d = 0 -> num_det d = 1 ->
  1 <= N -> part_ok b -> silent b -> fd b = 2 * N ->
  exists b', mesh_close x0 d0 name N s d b = Ok b'
    /\ b_np b' = b_np b + 2 * N
    /\ num_src b' = N /\ num_det b' = N /\ one_partner b' /\ order_ok b' /\ sym_C b'
    /\ (forall q q', q < b_np b -> q' < b_np b -> b_C b' (nport q) (nport q') = b_C b q q')
    /\ (forall i q, i < 2 * N -> q < b_np b ->
          (b_C b' (tport b i) (nport q) = true <-> nth_error (free_ports b) i = Some q)
          /\ (b_C b' (nport q) (tport b i) = true <-> nth_error (free_ports b) i = Some q))
    /\ net_buf x0 d0 (match mesh_terms N s d with t :: r => t :: (name, b) :: r | [] => [] end)
         (map tstr (tconns_from name 0 (mesh_terms N s d))) = Ok b'.
Proof.
  intros Hn Hns Hnd' Hs Hd Ns1 Nd1 Ns2 Nd2 HN Hp Hsil Hf.
  assert (Hnd : NoDup (name :: map fst (mesh_terms N s d))).
  { constructor; [|apply terms_names]. intros H. unfold mesh_terms in H. rewrite map_app in H. apply in_app_or in H.
    destruct H as [H|H]; apply many_fst in H; destruct H as (i & _ & E); [apply (Hns i E)|apply (Hnd' i E)]. }
  assert (Hlen : length (mesh_terms N s d) = length (free_ports b)) by (rewrite terms_length; symmetry; exact Hf).
  assert (Hne : mesh_terms N s d <> []) by (intros E; pose proof (terms_length N s d) as T0; rewrite E in T0; cbn in T0; lia).
  destruct (@terminate_all X D x0 d0 name b (mesh_terms N s d) (free_ports b)) as (b' & H1 & H2 & H3 & H4 & H5 & H6 & H7 & H8 & H9 & H10); auto.
  { apply terms_one; assumption. }
  { apply (po_order Hp). } { apply (po_flags Hp). } { now apply free_list_iff. }
  rewrite terms_length in *.
  assert (Hsum : list_sum (map (fun t => num_src (snd t)) (mesh_terms N s d)) = N
              /\ list_sum (map (fun t => num_det (snd t)) (mesh_terms N s d)) = N).
  { unfold mesh_terms. rewrite !map_app, !list_sum_app.
    rewrite (many_count "s" N Ns1), (many_count "d" N Ns2), (many_count "s" N Nd1), (many_count "d" N Nd2). lia. }
  assert (Hz : num_src b = 0 /\ num_det b = 0).
  { split; apply num_count; intros i Hi; apply (Hsil i Hi). }
  destruct (mesh_terms N s d) as [|[t0 bt0] rest] eqn:Em; [congruence|].
  assert (Hg : forall t c, In (t, c) ((t0, bt0) :: rest) -> good_name t /\ one_port c) by (rewrite <- Em; apply terms_one; assumption).
  assert (Hl' : length ((t0, bt0) :: rest) <= num_free b).
  { pose proof (terms_length N s d) as T0; rewrite Em in T0; rewrite T0, Hlen, free_ports_length; [lia|apply (po_order Hp)]. }
  destruct (terminate_build x0 d0 Hn Hg Hnd (po_order Hp) (po_flags Hp) Hl') as (b2 & E2 & Hnb & _).
  unfold mesh_close. rewrite Em. rewrite H1 in E2. injection E2 as <-.
  assert (Hsym : sym_C b').
  { eapply net_sym; [|exact Hnb|].
    - cbn [map fst] in *. inversion Hnd as [|? ? Hni Hr]; subst. inversion Hr as [|? ? Hni2 Hr2]; subst.
      constructor; [|constructor]; cbn in *; intuition congruence.
    - intros n c [[= <- <-]|[[= <- <-]|Hin]]; [| apply (po_sym Hp)|].
      + destruct (Hg t0 bt0 (or_introl eq_refl)) as [_ Ho]. intros i j Hi Hj. rewrite (op_np Ho) in *. now replace i with j by lia.
      + destruct (Hg n c (or_intror Hin)) as [_ Ho]. intros i j Hi Hj. rewrite (op_np Ho) in *. now replace i with j by lia. }
  exists b'. split; [exact H1|]. split; [exact H2|]. split; [lia|]. split; [lia|].
  split; [|split; [exact H9|split; [exact Hsym|split; [exact H3|split; [exact H4|exact Hnb]]]]].
  apply closed_one_partner; [|exact Hsym|apply H10, (po_once Hp)].
  unfold num_free. rewrite filter_none; [reflexivity|]. intros p Hpp. apply in_seq in Hpp. apply not_true_iff_false.
  intros HF. apply free_at_spec in HF. apply (H6 p); [lia|exact HF].
Qed.
Lemma built_silent mods ts m b : built mods ts m b -> (forall n c, In (n, c) mods -> silent c) -> silent b.
Proof. intros (cs & H) Hs. apply (net_silent (fo_buf H)). intros n c Hin. apply (Hs n c). now apply (fo_mods H). Qed.

Section Mesh2.
Variables wg mzi : nat -> nat -> buf.
Hypothesis Hwg : forall l i, leaf_ok 2 (wg l i) /\ silent (wg l i).
Hypothesis Hmzi : forall l i, leaf_ok 4 (mzi l i) /\ silent (mzi l i).

Ltac cases H := repeat match type of H with
  | In _ (_ ++ _) => apply in_app_or in H; destruct H as [H|H]
  | In _ (many _ _ _) => apply many_In in H; destruct H as (? & _ & _ & ->)
  | In _ (_ :: _) => destruct H as [[= <- <-]|H]
  | In _ [] => destruct H
  | In _ (if ?c then _ else _) => destruct c
  end.

Lemma clements_ok N c : 2 <= N -> 2 <= c -> exists b, clements x0 d0 N c wg mzi = Ok b /\ part_ok b /\ silent b /\ fd b = 2 * N.
Proof.
  intros HN Hc. destruct (@clements_builds wg mzi (fun l i => proj1 (Hwg l i)) (fun l i => proj1 (Hmzi l i)) N c HN Hc) as (b & L & Hb & HL & Hl & Hw).
  exists b. split; [exact Hb|]. split; [apply (wo_part Hw)|]. split.
  - apply (net_silent (wo_buf Hw)). intros n p H. apply many_In in H. destruct H as (i & Hi & -> & ->).
    destruct (Nat.eq_dec i (c / 2)) as [->|Hne].
    + unfold clements_last in Hl. destruct (odd_n c); apply (built_silent Hl); intros n' c' H'; unfold mixc_mods, phase_mods in H'; cases H'; first [apply Hwg|apply Hmzi].
    + apply (built_silent (HL i ltac:(lia))). intros n' c' H'. unfold cap2_mods in H'. cases H'; first [apply Hwg|apply Hmzi].
  - rewrite (wired_fd Hw). unfold chain_un. rewrite app_length, !map_length, !seq_length. lia.
Qed.

Lemma reck_ok N : 2 <= N -> exists b, reck x0 d0 N wg mzi = Ok b /\ part_ok b /\ silent b /\ fd b = 2 * N.
Proof.
  intros HN. destruct (@reck_builds wg mzi (fun l i => proj1 (Hwg l i)) (fun l i => proj1 (Hmzi l i)) N HN) as (b & L & Hb & HL & Hw).
  exists b. split; [exact Hb|]. split; [apply (wo_part Hw)|]. split.
  - apply (net_silent (wo_buf Hw)). intros n p H. unfold reck_mods in H. apply in_app_or in H. destruct H as [H|[[= <- <-]|[]]]; [|apply Hwg].
    apply many_In in H. destruct H as (i & Hi & -> & ->).
    apply (built_silent (HL i Hi)). intros n' c' H'. unfold reck1_mods in H'. cases H'; first [apply Hwg|apply Hmzi].
  - rewrite (wired_fd Hw). unfold reck_un. rewrite !app_length, !map_length, !seq_length. cbn. lia.
Qed.

Lemma ring_ok h c : 1 <= h -> 2 <= c -> exists b, ring_network x0 d0 (2 * h) c wg mzi = Ok b /\ part_ok b /\ silent b /\ fd b = 2 * (2 * h).
Proof.
  intros HN Hc. destruct (@ring_builds wg mzi (fun l i => proj1 (Hwg l i)) (fun l i => proj1 (Hmzi l i)) h c HN Hc) as (b & L & Hb & HL & Hl & Hw).
  exists b. split; [exact Hb|]. split; [apply (wo_part Hw)|]. split.
  - apply (net_silent (wo_buf Hw)). intros n p H. apply many_In in H. destruct H as (i & Hi & -> & ->).
    destruct (Nat.eq_dec i (c / 2)) as [->|Hne].
    + apply (built_silent Hl). intros n' c' H'. unfold mixr_mods in H'. cases H'; first [apply Hwg|apply Hmzi].
    + apply (built_silent (HL i ltac:(lia))). intros n' c' H'. unfold uncl_mods in H'. cases H'; first [apply Hwg|apply Hmzi].
  - rewrite (wired_fd Hw). unfold chain_un. rewrite app_length, !map_length, !seq_length. lia.
Qed.
End Mesh2.
End T.
