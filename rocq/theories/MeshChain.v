(** Networks of layers: the Clements, Reck and ring meshes build for every size, and which of their
    layers' ports are their own free ports, in which order. *)
From Coq Require Import Permutation.
From Verif Require Import Base PyStr PyStrProofs NetModel NetSpec LinkProofs NetProofs WireProofs OrderProofs TypedNet TermProofs NetBuild MeshModel MeshNet MeshBuild MeshLayers.
Set Implicit Arguments.
Unset Strict Implicit.
Local Open Scope string_scope.
Local Open Scope list_scope.
Local Open Scope nat_scope.

Notation nlay i := ("layer" ++ di i)%string.

(** * Order of first mention *)
Lemma dedup_incl l r seen : incl l seen -> dedup (l ++ r) seen = dedup r seen.
Proof.
  induction l as [|a l IH]; intros H; [reflexivity|]. cbn [app]. rewrite dedup_skip by (apply H; now left).
  apply IH. intros x Hx. apply H. now right.
Qed.

Lemma dedup_blocks (f : nat -> string) (c : nat -> nat) tail n : (forall i j, f i = f j -> i = j) -> forall a seen,
  (forall i, a <= i -> i < a + n -> 1 <= c i) -> In (f a) seen -> (forall i, a < i -> ~ In (f i) seen) ->
  dedup (flat_map (fun i => flat_map (fun _ => [f i; f (i + 1)]) (seq 0 (c i))) (seq a n) ++ tail) seen
  = map f (seq (a + 1) n) ++ dedup tail (rev (map f (seq (a + 1) n)) ++ seen).
Proof.
  intros Hf. induction n as [|n IH]; intros a seen Hc Ha Hn; [reflexivity|].
  cbn [seq flat_map map]. assert (Hc1 : 1 <= c a) by (apply Hc; lia).
  destruct (c a) as [|ca] eqn:Ec; [lia|]. cbn [seq flat_map]. rewrite <- !app_assoc.
  change ([f a; f (a + 1)] ++ ?r) with (f a :: f (a + 1) :: r).
  rewrite dedup_skip by exact Ha. rewrite dedup_take by (apply Hn; lia).
  cbn [app]. f_equal. rewrite dedup_incl.
  - replace (S a) with (a + 1) by lia. rewrite IH.
    + cbn [rev]. replace (S (a + 1)) with (a + 1 + 1) by lia. rewrite <- app_assoc. reflexivity.
    + intros i Hi Hi'. apply Hc; lia.
    + now left.
    + intros i Hi [E|H]; [apply Hf in E; lia|]. apply (Hn i); [lia|exact H].
  - intros x Hx. apply in_flat_map in Hx. destruct Hx as (_ & _ & [<-|[<-|[]]]); [now right|now left].
Qed.

Lemma dedup_start (f : nat -> string) (c : nat -> nat) tail n : (forall i j, f i = f j -> i = j) ->
  (forall i, i < n -> 1 <= c i) -> (n = 0 -> exists r, tail = f 0 :: r) ->
  dedup (flat_map (fun i => flat_map (fun _ => [f i; f (i + 1)]) (seq 0 (c i))) (seq 0 n) ++ tail) []
  = map f (seq 0 (S n)) ++ dedup tail (rev (map f (seq 0 (S n)))).
Proof.
  intros Hf Hc Ht. set (L := flat_map _ _ ++ tail).
  assert (HL : exists r, L = f 0 :: r).
  { unfold L. destruct n as [|n]; [destruct (Ht eq_refl) as (r & ->); eexists; reflexivity|].
    cbn [seq flat_map]. specialize (Hc 0 ltac:(lia)). destruct (c 0) as [|c0]; [lia|]. cbn [seq flat_map app]. eexists; reflexivity. }
  assert (E : dedup L [] = f 0 :: dedup L [f 0]).
  { destruct HL as (r & ->). rewrite dedup_take by auto. rewrite dedup_skip by (now left). reflexivity. }
  rewrite E. unfold L. rewrite dedup_blocks.
  - reflexivity.
  - exact Hf.
  - intros i H H'. apply Hc; lia.
  - now left.
  - intros i Hi [H|[]]. apply Hf in H. lia.
Qed.

Lemma no_num ts : (forall t, In t ts -> is_wire t = true) -> flat_map tnum ts = [].
Proof.
  induction ts as [|t ts IH]; intros H; [reflexivity|]. cbn [flat_map]. rewrite IH by (intros; apply H; now right).
  specialize (H t (or_introl eq_refl)). destruct t; [reflexivity|discriminate].
Qed.

Section C.
Variables (X D : Type) (x0 : X) (d0 : D).
Notation buf := (buf X D).
Notation comps := (list (string * buf)).

Lemma comps_same (l r : comps) : NoDup (map fst l) -> map fst l = map fst r -> (forall n c, In (n, c) l <-> In (n, c) r) -> l = r.
Proof.
  intros Hnd Hf HE.
  assert (HG : forall l0 r0 : comps, map fst l0 = map fst r0 -> incl l0 l -> incl r0 r -> l0 = r0).
  { induction l0 as [|[n c] l0 IH]; intros [|[n' c'] r0] E Hl Hr; try discriminate; [reflexivity|].
    cbn in E. injection E as -> E. f_equal.
    - f_equal. assert (H1 : In (n', c) l) by (apply Hl; now left). assert (H2 : In (n', c') l) by (apply HE, Hr; now left).
      pose proof (assoc_nodup Hnd H1) as A1. rewrite (assoc_nodup Hnd H2) in A1. now injection A1.
    - apply IH; auto; intros x Hx; [apply Hl|apply Hr]; now right. }
  apply HG; auto; intros x Hx; exact Hx.
Qed.

(** A network of parts with wires only; its free ports are the ends [un] of its parts. *)
Record wired_of (mods : comps) (ts : list tconn) (un : list (string * nat)) (b : buf) : Prop := {
  wo_nodup : NoDup (map fst mods);
  wo_parts : forall n c, In (n, c) mods -> part_ok c;
  wo_buf : net_buf x0 d0 mods (map tstr ts) = Ok b;
  wo_part : part_ok b;
  wo_np : b_np b = total_ports mods;
  wo_free : free_ports b = map (loc mods) un;
  wo_wire : forall n1 k1 n2 k2, In (TW n1 k1 n2 k2) ts ->
    b_C b (loc mods (n1, k1)) (loc mods (n2, k2)) = true /\ b_C b (loc mods (n2, k2)) (loc mods (n1, k1)) = true;
  wo_cover : forall n c k, In (n, c) mods -> k < fd c -> In (n, k) un \/ exists t, In t ts /\ In (n, k) (tends t)
}.

Theorem wired_net (mods : comps) ts keep un : ts <> [] -> NoDup (map fst mods) ->
  (forall n c, In (n, c) mods -> good_name n /\ part_ok c /\ 0 < b_np c) ->
  dedup (flat_map tnames ts) [] = map fst mods ->
  un = flat_map (fun nc => map (pair (fst nc)) (keep (fst nc))) mods ->
  (forall n c, In (n, c) mods -> exists f, keep n = filter f (seq 0 (fd c))) ->
  flat_map tnum ts = [] ->
  (forall n c k, In (n, c) mods -> k < fd c -> In k (keep n) \/ exists t, In t ts /\ In (n, k) (tends t)) ->
  length (flat_map tends ts) + length un <= list_sum (map (fun nc => fd (snd nc)) mods) ->
  exists b, build x0 d0 mods (map tstr ts) = Ok b /\ wired_of mods ts un b.
Proof.
  intros Hne Hnd Hg Hord Eun Hkf Hnum0 Hcov Hlen.
  assert (Hun : forall n k, In (n, k) un <-> exists c, In (n, c) mods /\ In k (keep n)).
  { intros n k. rewrite Eun, in_flat_map. split.
    - intros ([n' c] & Hin & H). cbn in H. apply in_map_iff in H. destruct H as (k' & [= -> ->] & Hk). eauto.
    - intros (c & Hin & Hk). exists (n, c). split; [exact Hin|]. cbn. now apply in_map. }
  assert (Hnum : Permutation (flat_map tnum ts) (seq 0 0)) by (rewrite Hnum0; constructor).
  destruct (@tnet X D x0 d0 mods ts un 0) as (b & cs & Hb & Hndc & Hfst & HE & Hnb & HN & HI); auto.
  - intros n c H. apply (in_map fst) in H. cbn in H. rewrite <- Hord in H. now apply dedup_spec in H.
  - intros [n k] H. apply in_all_ends in H. destruct H as (c & Hin & Hk). apply in_or_app.
    destruct (Hcov n c k Hin Hk) as [H|(t & Ht & He)].
    + right. apply Hun. eauto.
    + left. apply in_flat_map. eauto.
  - rewrite app_length, ends_len. exact Hlen.
  - assert (Ecs : cs = mods) by (apply comps_same; [exact Hndc|congruence|exact HE]). subst cs. clear HE.
    exists b. split; [exact Hb|].
    assert (Hok : forall n c, In (n, c) mods -> part_ok c) by (intros n c H; apply (Hg n c H)).
    assert (Hends : forall e, In e (flat_map tends ts) -> In e (all_ends mods)) by (intros e He; apply HI, in_or_app; auto).
    assert (Hnames : forall n, In n (flat_map tnames ts) -> good_name n).
    { intros n H. rewrite tnames_tends in H. apply in_map_iff in H. destruct H as ([n' k] & E & H). cbn in E. subst n'.
      apply Hends, in_all_ends in H. destruct H as (c & Hin & _). apply (Hg n c Hin). }
    pose proof (NoDup_left HN) as HNl.
    assert (Hwe : wire_ends ts = flat_map tends ts).
    { unfold wire_ends. f_equal. clear - Hnum0. induction ts as [|[? ? ? ?|? ? ?] l IH]; [reflexivity| |discriminate].
      cbn in *. f_equal. now apply IH. }
    constructor; auto.
    + exact (net_part_ok Hndc Hok Hends HNl Hnames Hnum Hnb).
    + apply (net_buf_inv Hnb).
    + rewrite (net_ports_rest Hndc Hok Hends HNl Hnames Hnum Hnb (keep := keep) eq_refl Hkf).
      * rewrite Eun, map_of_flat. apply flat_map_ext. intros [n c]. cbn [fst]. rewrite map_map. reflexivity.
      * intros n c k Hin Hk. rewrite Hwe. split.
        -- intros H1 H2. assert (Hu : In (n, k) un) by (apply Hun; eauto). revert HN H2 Hu. clear.
           generalize (flat_map tends ts). induction l as [|e l IH]; intros HN H2 Hu; [destruct H2|]. cbn in HN. destruct H2 as [H|H].
           ++ subst e. inversion HN as [|? ? Hni _]; subst. apply Hni, in_or_app. auto.
           ++ inversion HN; subst. auto.
        -- intros H. destruct (Hcov n c k Hin Hk) as [H1|(t & Ht & He)]; [exact H1|]. exfalso. apply H, in_flat_map. eauto.
    + intros n1 k1 n2 k2 H. exact (net_wire Hndc Hends HNl Hnames Hnb H).
    + intros n c k Hin Hk. destruct (Hcov n c k Hin Hk) as [H|H]; [left; apply Hun; eauto|now right].
Qed.

Lemma wired_fd mods ts un b : wired_of mods ts un b -> fd b = length un.
Proof. intros H. unfold fd. rewrite (wo_free H). apply map_length. Qed.

Lemma fd_pos (c : buf) : order_ok c -> 0 < fd c -> 0 < b_np c.
Proof. intros H1 H2. destruct (@fd_lt X D c 0 H1 H2). lia. Qed.

(** * Layers in a row (clements.py:248-251, rings.py:201-204) *)
Definition t_chain (N n : nat) : list tconn :=
  flat_map (fun i => map (fun j => TW (nlay i) (N + j) (nlay (i + 1)) j) (seq 0 N)) (seq 0 n).
Lemma chain_str N n : chain_conns N n = map tstr (t_chain N n).
Proof. unfold chain_conns, t_chain. rewrite map_of_flat. apply flat_map_ext. intros i. rewrite map_map. apply map_ext. reflexivity. Qed.

Definition chain_un (N n : nat) : list (string * nat) := map (pair (nlay 0)) (seq 0 N) ++ map (pair (nlay n)) (seq N N).

Lemma filter_none {A} (f : A -> bool) l : (forall x, In x l -> f x = false) -> filter f l = [].
Proof. induction l as [|a l IH]; intros H; [reflexivity|]. cbn. rewrite H by now left. apply IH. intros; apply H; now right. Qed.

Lemma seq_filter_lt N : seq 0 N = filter (fun k => k <? N) (seq 0 (2 * N)).
Proof.
  replace (2 * N) with (N + N) by lia. rewrite seq_app, filter_app, filter_all, filter_none, app_nil_r; [reflexivity| |].
  - intros x Hx. apply in_seq in Hx. apply Nat.ltb_ge. lia.
  - intros x Hx. apply in_seq in Hx. apply Nat.ltb_lt. lia.
Qed.
Lemma seq_filter_ge N : seq N N = filter (fun k => N <=? k) (seq 0 (2 * N)).
Proof.
  replace (2 * N) with (N + N) at 1 by lia. rewrite seq_app, filter_app, filter_none, filter_all; [reflexivity| |].
  - intros x Hx. apply in_seq in Hx. apply Nat.leb_le. lia.
  - intros x Hx. apply in_seq in Hx. apply Nat.leb_gt. lia.
Qed.

Theorem chain_builds N n (L : nat -> buf) : 1 <= N -> 1 <= n ->
  (forall i, i <= n -> part_ok (L i) /\ fd (L i) = 2 * N) ->
  exists b, build x0 d0 (many "layer" (S n) L) (chain_conns N n) = Ok b
    /\ wired_of (many "layer" (S n) L) (t_chain N n) (chain_un N n) b.
Proof.
  intros HN Hn HL. rewrite chain_str.
  set (keep := fun s => if String.eqb s (nlay 0) then seq 0 N else if String.eqb s (nlay n) then seq N N else []).
  assert (Hk0 : keep (nlay 0) = seq 0 N) by (unfold keep; rewrite String.eqb_refl; reflexivity).
  assert (Hkn : keep (nlay n) = seq N N).
  { unfold keep. destruct (String.eqb_spec (nlay n) (nlay 0)) as [E|_]; [apply name_inj in E; lia|]. rewrite String.eqb_refl. reflexivity. }
  assert (Hkm : forall i, 0 < i -> i < n -> keep (nlay i) = []).
  { intros i H1 H2. unfold keep. destruct (String.eqb_spec (nlay i) (nlay 0)) as [E|_]; [apply name_inj in E; lia|].
    destruct (String.eqb_spec (nlay i) (nlay n)) as [E|_]; [apply name_inj in E; lia|]. reflexivity. }
  apply (@wired_net _ _ keep).
  - destruct N; [lia|]. destruct n; [lia|]. discriminate.
  - apply many_NoDup.
  - intros s c H. apply many_In in H. destruct H as (i & Hi & -> & ->). split; [apply good_layer|].
    destruct (HL i) as [Hp Hf]; [lia|]. split; [exact Hp|]. apply fd_pos; [apply (po_order Hp)|lia].
  - unfold t_chain, many. rewrite flat_flat, map_map. cbn [fst].
    rewrite <- (app_nil_r (flat_map _ _)).
    erewrite (flat_map_ext _ (fun i => flat_map (fun _ => [nlay i; nlay (i + 1)]) (seq 0 N))).
    + rewrite (@dedup_start (fun i => nlay i) (fun _ => N)); auto; [cbn [dedup]; now rewrite app_nil_r|intros i j; apply name_inj|lia].
    + intros i. rewrite flat_of_map. reflexivity.
  - unfold chain_un, many. replace (S n) with (1 + ((n - 1) + 1)) by lia. rewrite !seq_app, !map_app, !flat_map_app. cbn [seq map flat_map fst app Nat.add].
    rewrite Hk0. replace (n - 1 + 1) with n by lia. replace (S (n - 1)) with n by lia. rewrite Hkn, app_nil_r. f_equal.
    replace (flat_map _ _) with (@nil (string * nat)); [now rewrite app_nil_r|]. symmetry. rewrite flat_of_map. cbn [fst].
    assert (HG : forall l, (forall i, In i l -> 0 < i < n) -> flat_map (fun i => map (pair (nlay i)) (keep (nlay i))) l = []).
    { induction l as [|i l IH]; intros Hl; [reflexivity|]. cbn [flat_map map]. rewrite Hkm by (apply Hl; now left). cbn [map app]. apply IH. intros; apply Hl; now right. }
    apply HG. intros i Hi. apply in_seq in Hi. lia.
  - intros s c H. apply many_In in H. destruct H as (i & Hi & -> & ->). destruct (HL i) as [_ ->]; [lia|].
    destruct (Nat.eq_dec i 0) as [->|H0]; [rewrite Hk0; eexists; apply seq_filter_lt|].
    destruct (Nat.eq_dec i n) as [->|H1]; [rewrite Hkn; eexists; apply seq_filter_ge|].
    rewrite Hkm by lia. exists (fun _ => false). symmetry. apply filter_none. reflexivity.
  - apply no_num. intros t Ht. unfold t_chain in Ht. apply in_flat_map in Ht. destruct Ht as (i & _ & Ht).
    apply in_map_iff in Ht. destruct Ht as (k & <- & _). reflexivity.
  - intros s c k H Hk. apply many_In in H. destruct H as (i & Hi & -> & ->). destruct (HL i) as [_ Hf]; [lia|]. rewrite Hf in Hk.
    unfold t_chain. destruct (Nat.lt_ge_cases k N) as [H|H].
    + destruct i as [|i]; [left; rewrite Hk0; apply in_seq; lia|]. right.
      exists (TW (nlay i) (N + k) (nlay (i + 1)) k). split.
      * apply in_flat_map. exists i. split; [apply in_seq; lia|]. apply in_map_iff. exists k. split; [reflexivity|apply in_seq; lia].
      * right. left. f_equal. f_equal. f_equal. lia.
    + destruct (Nat.eq_dec i n) as [->|Hne]; [left; rewrite Hkn; apply in_seq; lia|]. right.
      exists (TW (nlay i) (N + (k - N)) (nlay (i + 1)) (k - N)). split.
      * apply in_flat_map. exists i. split; [apply in_seq; lia|]. apply in_map_iff. exists (k - N). split; [reflexivity|apply in_seq; lia].
      * left. f_equal. lia.
  - rewrite (@many_sum _ _ _ _ _ (2 * N)) by (intros i Hi; apply HL; lia).
    unfold t_chain, chain_un. rewrite app_length, !map_length, !seq_length, flat_flat, (@len_flat _ _ _ (2 * N)), seq_length; [lia|].
    intros i. rewrite flat_of_map, (@len_flat _ _ _ 2), seq_length; reflexivity.
Qed.

(** * Reck (reck.py:130-141) *)
Definition t_reck (N : nat) : list tconn :=
  flat_map (fun m => map (fun n => TW (nlay (m - 1)) (N - m + 2 + n) (nlay m) n) (seq 0 (N - m))) (seq 1 (N - 2))
  ++ [TW (nlay (N - 2)) 3 "wg" 0].
Lemma reck_str N : 2 <= N -> reck_conns N = map tstr (t_reck N).
Proof.
  intros HN. unfold reck_conns, t_reck. rewrite map_app, map_of_flat. f_equal.
  - apply flat_map_ext. intros i. rewrite map_map. apply map_ext. reflexivity.
  - replace (Z.of_nat N - (Z.of_nat N - 2) + 1)%Z with 3%Z by lia.
    replace (Z.of_nat N - 2)%Z with (Z.of_nat (N - 2)) by lia. rewrite <- dec_nat_Z. reflexivity.
Qed.

(** Free ports: the inputs of layer 0, and the first output of each layer; the last waveguide. *)
Definition reck_un (N : nat) : list (string * nat) :=
  map (pair (nlay 0)) (seq 0 N) ++ map (fun m => (nlay m, N - m)) (seq 0 (N - 1)) ++ [("wg", 1)].

Definition reck_mods (N : nat) (L : nat -> buf) (w : buf) : comps := many "layer" (N - 1) L ++ [("wg", w)].

Lemma one_filter k n : k < n -> [k] = filter (Nat.eqb k) (seq 0 n).
Proof.
  intros H. replace n with (k + (1 + (n - k - 1))) by lia. rewrite !seq_app, !filter_app, filter_none, (filter_none (l := seq (0 + k + 1) _)).
  - cbn. rewrite Nat.eqb_refl. reflexivity.
  - intros x Hx. apply in_seq in Hx. apply Nat.eqb_neq. lia.
  - intros x Hx. apply in_seq in Hx. apply Nat.eqb_neq. lia.
Qed.
Lemma le_filter k n : k < n -> seq 0 (S k) = filter (fun x => x <=? k) (seq 0 n).
Proof.
  intros H. replace n with (S k + (n - k - 1)) by lia. rewrite seq_app, filter_app, filter_all, filter_none, app_nil_r; [reflexivity| |].
  - intros x Hx. apply in_seq in Hx. apply Nat.leb_gt. lia.
  - intros x Hx. apply in_seq in Hx. apply Nat.leb_le. lia.
Qed.

Theorem reck_wired N (L : nat -> buf) (w : buf) : 2 <= N ->
  (forall m, m <= N - 2 -> part_ok (L m) /\ fd (L m) = 2 * (N - m)) -> leaf_ok 2 w ->
  exists b, build x0 d0 (reck_mods N L w) (reck_conns N) = Ok b /\ wired_of (reck_mods N L w) (t_reck N) (reck_un N) b.
Proof.
  intros HN HL Hw. rewrite reck_str by exact HN.
  set (keep := fun s => if String.eqb s "wg" then [1] else if String.eqb s (nlay 0) then seq 0 (S N) else
     flat_map (fun m => if String.eqb s (nlay m) then [N - m] else []) (seq 1 (N - 2))).
  assert (Hkw : keep "wg" = [1]) by reflexivity.
  assert (Hk0 : keep (nlay 0) = seq 0 (S N)) by reflexivity.
  assert (Hkm : forall i, 0 < i -> i <= N - 2 -> keep (nlay i) = [N - i]).
  { intros i H1 H2. unfold keep. destruct (String.eqb_spec (nlay i) "wg") as [E|_]; [discriminate E|].
    destruct (String.eqb_spec (nlay i) (nlay 0)) as [E|_]; [apply name_inj in E; lia|].
    assert (HG : forall l, (In i l -> NoDup l -> flat_map (fun m => if String.eqb (nlay i) (nlay m) then [N - m] else []) l = [N - i])
       /\ (~ In i l -> flat_map (fun m => if String.eqb (nlay i) (nlay m) then [N - m] else []) l = [])).
    { induction l as [|m l [IH1 IH2]]; [split; [intros []|reflexivity]|]. cbn [flat_map]. split.
      - intros [->|Hi] Hnd; inversion Hnd; subst.
        + rewrite String.eqb_refl, IH2 by assumption. reflexivity.
        + destruct (String.eqb_spec (nlay i) (nlay m)) as [E|_]; [apply name_inj in E; subst; contradiction|]. now apply IH1.
      - intros Hi. destruct (String.eqb_spec (nlay i) (nlay m)) as [E|_]; [apply name_inj in E; subst; exfalso; apply Hi; now left|].
        apply IH2. intros H. apply Hi. now right. }
    apply HG; [apply in_seq; lia|apply seq_NoDup]. }
  assert (HIn : forall s c, In (s, c) (reck_mods N L w) -> (exists i, i <= N - 2 /\ s = nlay i /\ c = L i) \/ (s = "wg" /\ c = w)).
  { intros s c H. apply in_app_or in H. destruct H as [H|[[= <- <-]|[]]]; [|auto]. apply many_In in H.
    destruct H as (i & Hi & -> & ->). left. exists i. split; [lia|auto]. }
  apply (@wired_net _ _ keep).
  - unfold t_reck. intros E. apply app_eq_nil in E as [_ E]. discriminate.
  - unfold reck_mods. rewrite map_app. apply NoDup_app'; [apply many_NoDup|repeat constructor; intros []|].
    intros x Hx Hy. apply many_fst in Hx. destruct Hx as (i & _ & ->). destruct Hy as [E|[]]. discriminate E.
  - intros s c H. apply HIn in H. destruct H as [(i & Hi & -> & ->)|[-> ->]].
    + split; [apply good_layer|]. destruct (HL i Hi) as [Hp Hf]. split; [exact Hp|]. apply fd_pos; [apply (po_order Hp)|lia].
    + split; [apply good_wg'|]. split; [apply (leaf_part Hw)|]. rewrite (lo_np Hw). lia.
  - unfold t_reck, reck_mods. rewrite flat_map_app, flat_flat, map_app. unfold many. rewrite map_map. cbn [fst map].
    replace (flat_map _ (seq 1 (N - 2))) with (flat_map (fun i => flat_map (fun _ => [nlay i; nlay (i + 1)]) (seq 0 (N - (i + 1)))) (seq 0 (N - 2))).
    + rewrite (@dedup_start (fun i => nlay i) (fun i => N - (i + 1))).
      * replace (S (N - 2)) with (N - 1) by lia. f_equal. cbn [flat_map tnames app].
        rewrite dedup_skip by (apply in_rev; rewrite rev_involutive; apply in_map_iff; exists (N - 2); split; [reflexivity|apply in_seq; lia]).
        rewrite dedup_take; [reflexivity|]. intros H. apply in_rev in H. apply in_map_iff in H. destruct H as (j & E & _). discriminate E.
      * intros i j. apply name_inj.
      * intros i Hi. lia.
      * intros E. rewrite E. eexists. reflexivity.
    + rewrite <- seq_shift, flat_of_map. apply flat_map_ext. intros i. rewrite flat_of_map. cbn [tnames].
      replace (S i - 1) with i by lia. replace (i + 1) with (S i) by lia. reflexivity.
  - unfold reck_un, reck_mods, many. replace (N - 1) with (1 + (N - 2)) by lia. rewrite seq_app, !map_app, !flat_map_app. cbn [seq map flat_map fst app Nat.add].
    rewrite Hk0, Hkw, seq_S, map_app, ?app_nil_r. cbn [map]. rewrite ?app_nil_r, <- ?app_assoc. cbn [app]. f_equal. rewrite Nat.sub_0_r, Nat.add_0_l. f_equal. f_equal.
    rewrite flat_of_map. cbn [fst].
    assert (HG : forall l, (forall i, In i l -> 0 < i <= N - 2) -> map (fun m => (nlay m, N - m)) l = flat_map (fun i => map (pair (nlay i)) (keep (nlay i))) l).
    { induction l as [|i l IH]; intros Hl; [reflexivity|]. cbn [flat_map map]. rewrite Hkm by (apply Hl; now left). cbn [map app]. f_equal. apply IH. intros; apply Hl; now right. }
    apply HG. intros i Hi. apply in_seq in Hi. lia.
  - intros s c H. apply HIn in H. destruct H as [(i & Hi & -> & ->)|[-> ->]].
    + destruct (HL i Hi) as [_ ->]. destruct (Nat.eq_dec i 0) as [->|H0]; [rewrite Hk0; eexists; apply le_filter; lia|].
      rewrite Hkm by lia. eexists. apply one_filter. lia.
    + rewrite (leaf_fd Hw), Hkw. eexists. apply (@one_filter 1 2). lia.
  - apply no_num. intros t Ht. unfold t_reck in Ht. apply in_app_or in Ht. destruct Ht as [Ht|[<-|[]]]; [|reflexivity].
    apply in_flat_map in Ht. destruct Ht as (i & _ & Ht). apply in_map_iff in Ht. destruct Ht as (k & <- & _). reflexivity.
  - intros s c k H Hk. apply HIn in H. unfold t_reck. destruct H as [(i & Hi & -> & ->)|[-> ->]].
    + destruct (HL i Hi) as [_ Hf]. rewrite Hf in Hk. destruct (Nat.lt_ge_cases k (N - i)) as [H|H].
      * destruct i as [|i]; [left; rewrite Hk0; apply in_seq; lia|]. right.
        exists (TW (nlay i) (N - S i + 2 + k) (nlay (S i)) k). split; [|right; now left].
        apply in_or_app. left. apply in_flat_map. exists (S i). split; [apply in_seq; lia|]. apply in_map_iff. exists k.
        split; [repeat f_equal; lia|apply in_seq; lia].
      * destruct (Nat.eq_dec k (N - i)) as [->|Hne].
        { left. destruct i as [|i]; [rewrite Hk0; apply in_seq; lia|]. rewrite Hkm by lia. now left. }
        right. destruct (Nat.eq_dec i (N - 2)) as [->|Hne'].
        -- exists (TW (nlay (N - 2)) 3 "wg" 0). split; [apply in_or_app; right; now left|]. left. f_equal. lia.
        -- exists (TW (nlay i) k (nlay (S i)) (k - (N - i) - 1)). split; [|now left].
           apply in_or_app. left. apply in_flat_map. exists (S i). split; [apply in_seq; lia|]. apply in_map_iff. exists (k - (N - i) - 1).
           split; [|apply in_seq; lia]. replace (S i - 1) with i by lia. f_equal. lia.
    + rewrite (leaf_fd Hw) in Hk. destruct k as [|[|k]]; [|left; rewrite Hkw; now left|lia]. right.
      exists (TW (nlay (N - 2)) 3 "wg" 0). split; [apply in_or_app; right; now left|]. right. now left.
  - unfold t_reck, reck_un, reck_mods. rewrite map_app, list_sum_app. cbn [map snd list_sum fold_right]. rewrite (leaf_fd Hw).
    rewrite flat_map_app, !app_length, !map_length, !seq_length. cbn [flat_map tends app length].
    unfold many. rewrite map_map. cbn [snd]. replace (N - 1) with (S (N - 2)) by lia. cbn [seq map list_sum fold_right].
    destruct (HL 0) as [_ ->]; [lia|]. fold (list_sum (map (fun x => fd (L x)) (seq 1 (N - 2)))).
    assert (HG : forall l, (forall i, In i l -> i <= N - 2) ->
      length (flat_map tends (flat_map (fun m => map (fun n => TW (nlay (m - 1)) (N - m + 2 + n) (nlay m) n) (seq 0 (N - m))) l)) = list_sum (map (fun x => fd (L x)) l)).
    { induction l as [|i l IH]; intros Hl; [reflexivity|]. cbn [flat_map map list_sum fold_right]. rewrite flat_map_app, app_length.
      rewrite IH by (intros; apply Hl; now right). fold (list_sum (map (fun x => fd (L x)) l)). f_equal.
      rewrite flat_of_map, (@len_flat _ _ _ 2) by reflexivity. rewrite seq_length. destruct (HL i) as [_ ->]; [apply Hl; now left|]. lia. }
    rewrite HG; [lia|]. intros i Hi. apply in_seq in Hi. lia.
Qed.

End C.
