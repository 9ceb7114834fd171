(** Simulating closed meshes in the frequency domain. *)
From Coq Require Import Ring QArith Permutation.
From Verif Require Import Base PyStr NetModel NetSpec NetProofs WireProofs OrderProofs TypedNet TermProofs NetBuild SimModel SimAlg SimSpec SimProofs SimDelay CircuitSpec CircuitProofs UniSpec UniProofs MeshModel MeshNet MeshBuild MeshLayers MeshChain MeshTop MeshFlow MeshActs.
Set Implicit Arguments.
Unset Strict Implicit.
Local Open Scope string_scope.
Local Open Scope list_scope.
Local Open Scope nat_scope.

Lemma filter_all {A} (f : A -> bool) l : (forall x, In x l -> f x = true) -> filter f l = l.
Proof. induction l as [|a l IH]; intros H; [reflexivity|]. cbn. rewrite H by now left. f_equal. apply IH. intros; apply H; now right. Qed.

Lemma rank_split f n k : rank f (S (n + k)) = (if f 0 then 1 else 0) + length (filter f (seq 1 n)) + length (filter f (seq (S n) k)).
Proof.
  unfold rank. replace (S (n + k)) with (1 + (n + k)) by lia. rewrite seq_app, filter_app, app_length, seq_app, filter_app, app_length.
  cbn [seq filter Nat.add]. destruct (f 0); cbn [length]; lia.
Qed.

Section S.
Variables (K : Type) (k0 k1 : K) (kadd kmul ksub : K -> K -> K) (kopp : K -> K).
Hypothesis KR : ring_theory k0 k1 kadd kmul ksub kopp (@eq K).
Notation cx := (prod K K).
Notation c0 := (c0 k0).
Notation c1 := (c1 k0 k1).
Notation cadd := (cadd kadd).
Notation cmul := (cmul kadd kmul ksub).
Notation csum := (lsum c0 cadd).
Notation vec := (nat -> cx).
Notation net := (net K).
Notation comps := (list (string * net)).
Notation x0 := (fun _ : nat => c0).
Notation d0 := 0%Q.
Notation flows := (flows k0 kadd kmul ksub).
Notation rel := (rel k0 kadd kmul ksub).
Notation acts := (acts k0 kadd kmul ksub).
Let CR := CR KR.
Add Ring Cring : CR.

Definition flagged (fs fd : bool) (c : net) : Prop := b_src c 0 = fs /\ b_det c 0 = fd /\ b_act c 0 = false.
Variables (name : string) (N w : nat) (b s d b' : net).
Hypothesis Hn : good_name name.
Hypothesis Hns : forall i, name <> ("s" ++ di i)%string.
Hypothesis Hnd : forall i, name <> ("d" ++ di i)%string.
Hypothesis Hs : one_port s.
Hypothesis Hd : one_port d.
Hypothesis Fs : flagged true false s.
Hypothesis Fd : flagged false true d.
Hypothesis Ss : b_S s 0 0 w = c0.
Hypothesis Sd : b_S d 0 0 w = c0.
Hypothesis HN : 1 <= N.
Hypothesis Hp : part_ok b.
Hypothesis Hsil : silent b.
Hypothesis Hf : fd b = 2 * N.
Hypothesis Hb' : mesh_close x0 d0 name N s d b = Ok b'.

Notation tp := (tport b).
Notation np := nport.

Lemma mesh_facts : b_np b' = b_np b + 2 * N /\ one_partner b' /\ order_ok b' /\ sym_C b'
  /\ (forall q q', q < b_np b -> q' < b_np b -> b_C b' (np q) (np q') = b_C b q q')
  /\ (forall i q, i < 2 * N -> q < b_np b ->
        (b_C b' (tp i) (np q) = true <-> nth_error (free_ports b) i = Some q)
        /\ (b_C b' (np q) (tp i) = true <-> nth_error (free_ports b) i = Some q))
  /\ exists cs conns, NoDup (map fst cs) /\ net_buf x0 d0 cs conns = Ok b'
     /\ (forall q, q < b_np b -> located cs (np q) name b q)
     /\ (forall i, i < N -> exists n, n <> name /\ located cs (tp i) n s 0)
     /\ (forall i, N <= i < 2 * N -> exists n, n <> name /\ located cs (tp i) n d 0)
     /\ (exists post, cs = [(("s" ++ di 0)%string, s)] ++ (name, b) :: post).
Proof.
  destruct (@mesh_closed _ _ x0 d0 name N b s d) as (b2 & H1 & H2 & H3 & H4 & H5 & H6 & H7 & H8 & H9 & H10); auto.
  { unfold num_src. rewrite (op_np Hs). cbn [seq filter]. destruct Fs as (-> & _). reflexivity. }
  { unfold num_det. rewrite (op_np Hs). cbn [seq filter]. destruct Fs as (_ & -> & _). reflexivity. }
  { unfold num_src. rewrite (op_np Hd). cbn [seq filter]. destruct Fd as (-> & _). reflexivity. }
  { unfold num_det. rewrite (op_np Hd). cbn [seq filter]. destruct Fd as (_ & -> & _). reflexivity. }
  rewrite Hb' in H1. injection H1 as <-.
  split; [exact H2|]. split; [exact H5|]. split; [exact H6|]. split; [exact H7|]. split; [exact H8|]. split; [exact H9|].
  assert (Ht : forall i, i < N -> nth_error (mesh_terms N s d) i = Some (("s" ++ di i)%string, s)).
  { intros i Hi. unfold mesh_terms, many. rewrite nth_error_app1 by (rewrite map_length, seq_length; exact Hi).
    exact (map_nth_error (fun i => (("s" ++ di i)%string, s)) _ _ (nth_error_seq_lt 0 Hi)). }
  assert (Ht' : forall i, i < N -> nth_error (mesh_terms N s d) (N + i) = Some (("d" ++ di i)%string, d)).
  { intros i Hi. unfold mesh_terms, many. rewrite nth_error_app2 by (rewrite map_length, seq_length; lia).
    rewrite map_length, seq_length. replace (N + i - N) with i by lia.
    exact (map_nth_error (fun i => (("d" ++ di i)%string, d)) _ _ (nth_error_seq_lt 0 Hi)). }
  assert (Hg : forall t c, In (t, c) (mesh_terms N s d) -> good_name t /\ one_port c) by (apply terms_one; assumption).
  assert (Hnd0 : NoDup (name :: map fst (mesh_terms N s d))).
  { constructor; [|apply terms_names]. intros H. unfold mesh_terms in H. rewrite map_app in H. apply in_app_or in H.
    destruct H as [H|H]; apply many_fst in H; destruct H as (i & _ & E); [exact (Hns E)|exact (Hnd E)]. }
  assert (Hl' : length (mesh_terms N s d) <= num_free b).
  { rewrite terms_length. rewrite <- Hf. unfold fd. rewrite free_ports_length; [lia|apply (po_order Hp)]. }
  destruct (mesh_terms N s d) as [|[t0 bt0] rest] eqn:Em; [specialize (Ht 0 ltac:(lia)); discriminate|].
  pose proof (Ht 0 ltac:(lia)) as E0. cbn in E0. injection E0 as E1 E2.
  exists ((t0, bt0) :: (name, b) :: rest), (map tstr (tconns_from name 0 ((t0, bt0) :: rest))). repeat split.
  - cbn [map fst] in *. inversion Hnd0 as [|? ? Hni Hr]; subst. inversion Hr as [|? ? Hni2 Hr2]; subst.
    constructor; [|constructor]; cbn in *; intuition congruence.
  - exact H10.
  - intros q Hq. exact (@located_net _ _ name b t0 bt0 rest Hg q Hq).
  - intros i Hi. exists ("s" ++ di i)%string. split; [intros E; exact (Hns (eq_sym E))|]. exact (located_term name Hg Hl' (Ht i Hi)).
  - intros i Hi. exists ("d" ++ di (i - N))%string. split; [intros E; exact (Hnd (eq_sym E))|].
    pose proof (located_term name Hg Hl' (Ht' (i - N) ltac:(lia))) as HL. replace (N + (i - N)) with i in HL by lia. exact HL.
  - exists rest. rewrite E1, E2. reflexivity.
Qed.

Lemma port_cases p : p < b_np b' -> (exists i, i < 2 * N /\ p = tp i) \/ exists q, q < b_np b /\ p = np q.
Proof.
  destruct mesh_facts as (E & _). rewrite E. intros H. destruct p as [|p]; [left; exists 0; split; [lia|reflexivity]|].
  destruct (Nat.lt_ge_cases p (b_np b)); [right; exists p; auto|]. left. exists (S (p - b_np b)). split; [lia|]. cbn. lia.
Qed.
Lemma tp_lt i : i < 2 * N -> tp i < b_np b'.
Proof. destruct mesh_facts as (E & _). rewrite E. destruct i; cbn [tport]; lia. Qed.
Lemma np_lt q : q < b_np b -> np q < b_np b'.
Proof. destruct mesh_facts as (E & _). rewrite E. unfold nport. lia. Qed.

Lemma tp_flags i : i < 2 * N -> b_src b' (tp i) = (i <? N) /\ b_det b' (tp i) = (N <=? i) /\ b_act b' (tp i) = false.
Proof.
  intros Hi. destruct mesh_facts as (_ & _ & _ & _ & _ & _ & cs & conns & _ & Hb & _ & H1 & H2 & _).
  destruct (net_buf_inv Hb) as (_ & _ & _ & -> & -> & -> & _). destruct (Nat.ltb_spec i N) as [L|L].
  - destruct (H1 i L) as (n & _ & HL). rewrite !(block_vec_located _ _ HL). destruct Fs as (-> & -> & ->). now rewrite (proj2 (Nat.leb_gt N i)) by lia.
  - destruct (H2 i) as (n & _ & HL); [lia|]. rewrite !(block_vec_located _ _ HL). destruct Fd as (-> & -> & ->). now rewrite (proj2 (Nat.leb_le N i)) by lia.
Qed.
Lemma np_flags q : q < b_np b -> b_src b' (np q) = false /\ b_det b' (np q) = false /\ b_act b' (np q) = false.
Proof.
  intros Hq. destruct mesh_facts as (_ & _ & _ & _ & _ & _ & cs & conns & _ & Hb & H1 & _).
  destruct (net_buf_inv Hb) as (_ & _ & _ & -> & -> & -> & _). rewrite !(block_vec_located _ _ (H1 q Hq)). now apply Hsil.
Qed.
Lemma tp_dark i j : i < 2 * N -> b_S b' (tp i) j w = c0 /\ b_S b' j (tp i) w = c0.
Proof.
  intros Hi. destruct mesh_facts as (_ & _ & _ & _ & _ & _ & cs & conns & _ & Hb & _ & H1 & H2 & _).
  assert (HL : exists n c, located cs (tp i) n c 0 /\ b_np c = 1 /\ b_S c 0 0 w = c0).
  { destruct (Nat.lt_ge_cases i N) as [L|L].
    - destruct (H1 i L) as (n & _ & HL). exists n, s. auto using op_np.
    - destruct (H2 i) as (n & _ & HL); [lia|]. exists n, d. auto using op_np. }
  destruct HL as (n & c & (pre & post & E & Ep & L0) & E1 & E0). rewrite Ep.
  destruct (S_block Hb j w E L0) as [-> ->]. rewrite E1.
  destruct ((ports_before pre <=? j) && (j <? ports_before pre + 1)) eqn:Ej; [|auto].
  apply andb_prop in Ej. destruct Ej as [J1 J2]. apply Nat.leb_le in J1. apply Nat.ltb_lt in J2. replace (j - ports_before pre) with 0 by lia. auto.
Qed.

Lemma src_rank i : i < N -> rank (b_src b') (tp i) = i.
Proof.
  intros Hi. destruct i as [|i]; [reflexivity|]. cbn [tport]. rewrite rank_split.
  destruct (tp_flags (i := 0)) as (E & _); [lia|]. cbn [tport] in E. rewrite E, (proj2 (Nat.ltb_lt 0 N)) by lia.
  rewrite filter_none, filter_all; [rewrite seq_length; cbn; lia| |].
  - intros p Hin. apply in_seq in Hin. destruct (tp_flags (i := S (p - S (b_np b)))) as (E' & _); [lia|]. cbn [tport] in E'.
    replace (S (b_np b + (p - S (b_np b)))) with p in E' by lia. rewrite E'. apply Nat.ltb_lt. lia.
  - intros p Hin. apply in_seq in Hin. destruct (np_flags (q := p - 1)) as (E' & _); [lia|]. unfold nport in E'. now replace (S (p - 1)) with p in E' by lia.
Qed.
Lemma det_rank i : i < N -> rank (b_det b') (tp (N + i)) = i.
Proof.
  intros Hi. replace (N + i) with (S (N - 1 + i)) by lia. cbn [tport]. rewrite rank_split.
  destruct (tp_flags (i := 0)) as (_ & E & _); [lia|]. cbn [tport] in E. rewrite E, (proj2 (Nat.leb_gt N 0)) by lia.
  rewrite seq_app, filter_app, app_length.
  assert (HT : forall p, b_np b < p -> p <= b_np b + (N - 1 + i) -> b_det b' p = (N <=? p - b_np b)).
  { intros p H1 H2. destruct (tp_flags (i := S (p - S (b_np b)))) as (_ & E' & _); [lia|]. cbn [tport] in E'.
    replace (S (b_np b + (p - S (b_np b)))) with p in E' by lia. rewrite E'. f_equal. lia. }
  rewrite (@filter_none _ _ (seq 1 _)), (@filter_none _ _ (seq _ (N - 1))), filter_all; [rewrite seq_length; cbn; lia| | |].
  - intros p Hin. apply in_seq in Hin. rewrite HT by lia. apply Nat.leb_le. lia.
  - intros p Hin. apply in_seq in Hin. rewrite HT by lia. apply Nat.leb_gt. lia.
  - intros p Hin. apply in_seq in Hin. destruct (np_flags (q := p - 1)) as (_ & E' & _); [lia|]. unfold nport in E'. now replace (S (p - 1)) with p in E' by lia.
Qed.

Variables (e : env).
Hypothesis He : e_freq e = true.

Lemma tp_lag i : i < 2 * N -> lag e b' (tp i) = 1.
Proof.
  intros Hi. unfold lag. rewrite steps_freq by exact He. destruct (tp_flags Hi) as (-> & -> & ->).
  destruct (Nat.ltb_spec i N); [reflexivity|]. rewrite (proj2 (Nat.leb_le N i)) by lia. reflexivity.
Qed.
Lemma np_lag q : q < b_np b -> lag e b' (np q) = 0.
Proof. intros Hq. unfold lag. rewrite steps_freq by exact He. destruct (np_flags Hq) as (-> & -> & ->). reflexivity. Qed.

Lemma mesh_unmixed : unmixed k0 e b' w.
Proof.
  intros i j Li Lj HL. destruct (port_cases Li) as [(p & Hp1 & ->)|(q & Hq & ->)]; [now apply tp_dark|].
  destruct (port_cases Lj) as [(p & Hp1 & ->)|(q' & Hq' & ->)]; [now apply tp_dark|]. rewrite !np_lag in HL by assumption. contradiction.
Qed.
Lemma mesh_separate : separate b'.
Proof.
  intros i Li. destruct (port_cases Li) as [(p & Hp1 & ->)|(q & Hq & ->)].
  - destruct (tp_flags Hp1) as (-> & -> & ->). destruct (Nat.ltb_spec p N), (Nat.leb_spec N p); repeat split; auto; lia.
  - destruct (np_flags Hq) as (-> & -> & ->). repeat split; discriminate.
Qed.
Lemma mesh_act : num_act b' = 0.
Proof.
  unfold num_act. rewrite filter_none; [reflexivity|]. intros p Hin. apply in_seq in Hin.
  destruct (@port_cases p) as [(i & Hi & ->)|(q & Hq & ->)]; [lia|now apply tp_flags|now apply np_flags].
Qed.

Lemma mesh_flows T src a o t : waves k0 kadd kmul ksub e b' w T src a o -> t < T -> flows b' w (src t) (a t) (o t).
Proof.
  intros HW Lt. destruct mesh_facts as (_ & OP & _). split.
  - intros i j Li Lj HC. destruct (HW t i Lt Li) as [-> _]. destruct (OP i Li) as (j' & Lj' & HC' & HU). assert (j = j') by auto. subst j'.
    rewrite (@lsum_ext _ c0 cadd _ _ (fun k => if k =? j then o t k else c0)).
    + rewrite (lsum_one CR). now rewrite (proj2 (Nat.ltb_lt j (b_np b'))) by exact Lj.
    + intros k Ik. apply in_seq in Ik. destruct (Nat.eqb_spec k j) as [->|Hne]; [now rewrite HC|].
      destruct (b_C b' i k) eqn:E; [|reflexivity]. exfalso. apply Hne. apply HU; [lia|exact E].
  - intros i Li. destruct (HW t i Lt Li) as [_ ->]. f_equal. unfold scatter. apply lsum_ext. intros j Ij. apply in_seq in Ij.
    destruct (@port_cases j) as [(p & Hp1 & ->)|(q & Hq & ->)]; [lia| |].
    + destruct (@tp_dark p i Hp1) as [_ ->]. ring.
    + rewrite np_lag by exact Hq. unfold past. cbn [Nat.ltb Nat.leb]. now rewrite Nat.sub_0_r.
Qed.

Theorem closed_transfer M M' solve (A : Type) act (s0 : A) source outs c t k :
  acts N b w M -> uni k0 kadd kmul ksub kopp N M M' -> solver_sound k0 kadd kmul solve -> w < e_num_wl e ->
  forward k0 k1 kadd kmul ksub kopp solve act e b' s0 source = Ok outs -> t < e_num_t e -> k < N ->
  at_ (nth t outs (zero_field k0)) w k c = M (fun j => at_ (source t) w j c) k.
Proof.
  intros HA HU SS Lw HF Lt Lk.
  destruct (forward_sound KR SS c mesh_separate mesh_act Lw mesh_unmixed HF) as (a & o & HW & _ & HR).
  pose proof (mesh_flows HW Lt) as HFl.
  destruct mesh_facts as (_ & _ & _ & _ & _ & HT & cs & conns & ND & Hb & HLn & _ & _ & post & Ecs).
  assert (HJ : forall q, q < b_np b -> forall p, located cs p name b q -> injected k0 b' source w c t p = c0).
  { intros q Hq p HL. unfold injected. destruct (net_buf_inv Hb) as (_ & _ & _ & -> & _). rewrite (block_vec_located _ _ HL).
    destruct (Hsil Hq) as (-> & _). reflexivity. }
  assert (Hin : In (name, b) cs) by (rewrite Ecs; right; now left).
  pose proof (part_rel KR ND Hb Hin HJ HFl) as Hrel.
  assert (HL : forall i, i < 2 * N -> exists q, q < b_np b /\ nth_error (free_ports b) i = Some q /\ loc cs (name, i) = np q).
  { intros i Hi. assert (Hi' : i < length (free_ports b)) by (fold (fd b); lia).
    exists (nth i (free_ports b) 0). pose proof (nth_error_nth' (free_ports b) 0 Hi') as E. split; [|split; [exact E|]].
    - apply nth_error_In in E. apply filter_In in E. apply (order_ok_lt (po_order Hp)). apply E.
    - unfold loc. cbn [fst snd].
      assert (Hni : ~ In name (map fst [(("s" ++ di 0)%string, s)])) by (intros [H|[]]; exact (Hns (eq_sym H))).
      destruct (lookup_comp b post Hni) as [E1 E2]. rewrite Ecs. unfold SimModel.net in *. rewrite E1, E2. rewrite ports_before_cons, (op_np Hs). reflexivity. }
  assert (HO : forall i, i < 2 * N -> o t (tp i) = injected k0 b' source w c t (tp i)).
  { intros i Hi. destruct HFl as [_ H]. rewrite H by (apply tp_lt; exact Hi). unfold scatter.
    rewrite (lsum_0 CR); [ring|]. intros j _. destruct (tp_dark j Hi) as [-> _]. ring. }
  assert (HX : forall j, j < N -> a t (loc cs (name, j)) = at_ (source t) w j c).
  { intros j Lj. destruct (HL j) as (q & Hq & E & ->); [lia|]. destruct HFl as [HC _].
    rewrite (HC (np q) (tp j)); [|now apply np_lt|apply tp_lt; lia|apply (HT j q); [lia|exact Hq|exact E]].
    rewrite HO by lia. unfold injected. destruct (@tp_flags j) as (-> & _); [lia|]. rewrite (proj2 (Nat.ltb_lt j N) Lj), src_rank by exact Lj. reflexivity. }
  specialize (HR t (tp (N + k)) Lt (tp_lt (i := N + k) ltac:(lia))). rewrite det_rank in HR by exact Lk.
  destruct (@tp_flags (N + k)) as (_ & E & _); [lia|]. rewrite (proj2 (Nat.leb_le N (N + k))) in E by lia. rewrite (HR E).
  destruct (HL (N + k)) as (q & Hq & Eq & El); [lia|].
  transitivity (o t (np q)).
  { destruct HFl as [HC _]. apply HC; [apply tp_lt; lia|now apply np_lt|]. apply (HT (N + k) q); [lia|exact Hq|exact Eq]. }
  rewrite <- El. rewrite (HA _ _ Hrel k Lk). apply (uni_local KR _ _ HU); [|exact Lk]. intros j Lj. cbv beta. now apply HX.
Qed.

End S.
