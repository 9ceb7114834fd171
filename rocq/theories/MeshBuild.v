(** The layers of the Clements, Reck and ring meshes build, for every size and every factory. *)
From Coq Require Import Permutation.
From Verif Require Import Base PyStr PyStrProofs NetModel NetSpec LinkProofs NetProofs WireProofs OrderProofs TypedNet TermProofs NetBuild MeshModel MeshNet.
Set Implicit Arguments.
Unset Strict Implicit.
Local Open Scope string_scope.
Local Open Scope list_scope.
Local Open Scope nat_scope.

(** * Arithmetic of the Python ranges *)
Lemma parity N : exists h r, N = 2 * h + r /\ r < 2 /\ N / 2 = h /\ N mod 2 = r /\ odd_n N = (r =? 1).
Proof.
  exists (N / 2), (N mod 2). pose proof (Nat.div_mod N 2 ltac:(lia)). pose proof (Nat.mod_upper_bound N 2 ltac:(lia)).
  repeat split; auto; lia.
Qed.
Lemma half h r : r < 2 -> (2 * h + r) / 2 = h.
Proof. intros H. symmetry. apply (Nat.div_unique (2 * h + r) 2 h r); lia. Qed.

Lemma even_split h : odd_n (2 * h) = false /\ 2 * h / 2 = h.
Proof.
  destruct (parity (2 * h)) as (h' & r & E & Hr & -> & _ & ->). split; [|lia]. destruct r as [|[|r]]; [reflexivity|lia|lia].
Qed.

Lemma range2_len a b : length (py_range a b 2) = (b - a + 1) / 2.
Proof. unfold py_range. now rewrite map_length, seq_length. Qed.
Lemma range2_In a b x : In x (py_range a b 2) <-> exists k, x = a + 2 * k /\ x < b.
Proof.
  unfold py_range. rewrite in_map_iff. change (2 - 1) with 1.
  destruct (parity (b - a + 1)) as (h & r & E & Hr & -> & _). split.
  - intros (k & <- & Hk). apply in_seq in Hk. exists k. split; [reflexivity|lia].
  - intros (k & -> & Hk). exists k. split; [reflexivity|]. apply in_seq. lia.
Qed.

Lemma last_opt_snoc {A} (l : list A) x : last_opt (l ++ [x]) = Some x.
Proof. unfold last_opt. rewrite rev_app_distr. reflexivity. Qed.
Lemma last_opt_app {A} (l r : list A) : r <> [] -> last_opt (l ++ r) = last_opt r.
Proof.
  intros H. destruct (exists_last H) as (r' & x & ->). rewrite app_assoc, !last_opt_snoc. reflexivity.
Qed.
Lemma last_seq n : last_opt (seq 0 (S n)) = Some n.
Proof. rewrite seq_S. apply last_opt_snoc. Qed.
Lemma last_range2 h b : 2 * h < b -> b <= 2 * h + 2 -> last_opt (py_range 0 b 2) = Some (2 * h).
Proof.
  intros H1 H2. unfold py_range. replace ((b - 0 + (2 - 1)) / 2) with (S h).
  - rewrite seq_S, map_app. cbn [map]. rewrite last_opt_snoc. f_equal; lia.
  - replace (b - 0 + (2 - 1)) with (2 * S h + (b - 2 * h - 1)) by lia. symmetry; apply half; lia.
Qed.

Lemma len_flat {A B} (f : A -> list B) k l : (forall x, length (f x) = k) -> length (flat_map f l) = k * length l.
Proof. intros H. induction l as [|x l IH]; cbn; [lia|]. rewrite app_length, H, IH. lia. Qed.
Lemma flat_flat {A B C} (g : B -> list C) (f : A -> list B) l : flat_map g (flat_map f l) = flat_map (fun x => flat_map g (f x)) l.
Proof. induction l as [|x l IH]; cbn; [reflexivity|]. now rewrite flat_map_app, IH. Qed.
Lemma flat_of_map {A B C} (g : B -> list C) (f : A -> B) l : flat_map g (map f l) = flat_map (fun x => g (f x)) l.
Proof. induction l as [|x l IH]; cbn; [reflexivity|]. now rewrite IH. Qed.
Lemma map_of_flat {A B C} (g : B -> C) (f : A -> list B) l : map g (flat_map f l) = flat_map (fun x => map g (f x)) l.
Proof. induction l as [|x l IH]; cbn; [reflexivity|]. now rewrite map_app, IH. Qed.

(** * Names *)
Lemma good_prefix c s : Forall (fun c => c <> colon /\ is_space c = false) (list_ascii_of_string (String c s)) ->
  digit_val c = None -> (c =? "-")%char = false -> (c =? "+")%char = false -> (c =? "_")%char = false ->
  forall n, good_name (String c s ++ di n).
Proof.
  intros HF Hd H1 H2 H3 n. split; [|split].
  - apply no_colon_app; [|apply dec_nat_no_colon]. revert HF. generalize (String c s). clear.
    induction s as [|c s IH]; cbn; intros H; [exact I|]. inversion H; subst. tauto.
  - apply no_space_app; [|apply dec_nat_no_space]. revert HF. generalize (String c s). clear.
    induction s as [|c s IH]; cbn; intros H; [exact I|]. inversion H; subst. tauto.
  - assert (HS : strip (String c s ++ di n) = (String c s ++ di n)%string).
    { apply strip_id, no_space_app; [|apply dec_nat_no_space]. revert HF. generalize (String c s). clear.
      induction s as [|c s IH]; cbn; intros H; [exact I|]. inversion H; subst. tauto. }
    unfold py_int. rewrite HS. change (String c s ++ di n)%string with (String c (s ++ di n)).
    assert (E : option_map Z.of_N (pdig true (String c (s ++ di n)) 0) = None).
    { cbn [pdig]. rewrite Hd, H3. reflexivity. }
    clear - H1 H2 E. generalize dependent (s ++ di n)%string. intros r E.
    destruct c as [[|] [|] [|] [|] [|] [|] [|] [|]]; try discriminate H1; try discriminate H2; exact E.
Qed.
Ltac goodp := apply good_prefix; [repeat (apply Forall_cons; [split; [discriminate|reflexivity]|]); apply Forall_nil|reflexivity|reflexivity|reflexivity|reflexivity].
Lemma good_mzi n : good_name ("mzi" ++ di n). Proof. goodp. Qed.
Lemma good_wg n : good_name ("wg" ++ di n). Proof. goodp. Qed.
Lemma good_layer n : good_name ("layer" ++ di n). Proof. goodp. Qed.
Lemma good_s n : good_name ("s" ++ di n). Proof. goodp. Qed.
Lemma good_d n : good_name ("d" ++ di n). Proof. goodp. Qed.
Lemma good_lit s : (exists l, s = string_of_list_ascii l /\ forallb (fun c => negb (Ascii.eqb c colon) && negb (is_space c)) l = true) ->
  py_int s = None -> good_name s.
Proof.
  intros (l & -> & H) Hp. split; [|split; [|exact Hp]]; clear Hp.
  - induction l as [|c l IH]; [exact I|]. cbn in *. apply andb_true_iff in H as [H H']. apply andb_true_iff in H as [Ha Hb].
    split; [|auto]. intros ->. discriminate Ha.
  - induction l as [|c l IH]; [exact I|]. cbn in *. apply andb_true_iff in H as [H H']. apply andb_true_iff in H as [Ha Hb].
    split; [|auto]. now apply negb_true_iff in Hb.
Qed.
Lemma good_wg' : good_name "wg".
Proof. apply good_lit; [exists ["w"; "g"]%char; split; reflexivity|reflexivity]. Qed.
Lemma good_wg_ : good_name "wg_".
Proof. apply good_lit; [exists ["w"; "g"; "_"]%char; split; reflexivity|reflexivity]. Qed.

Lemma append_inj p s t : (p ++ s)%string = (p ++ t)%string -> s = t.
Proof. induction p as [|c p IH]; cbn; intros H; [exact H|]. injection H as H. auto. Qed.
Lemma name_inj p i j : (p ++ di i)%string = (p ++ di j)%string -> i = j.
Proof. intros H. apply append_inj in H. now apply dec_nat_inj. Qed.
Lemma di_not s i : py_int s = None -> di i <> s.
Proof. intros H E. rewrite <- E, py_int_dec_nat in H. discriminate. Qed.

Section B.
Variables (X D : Type) (x0 : X) (d0 : D).
Notation buf := (buf X D).
Notation comps := (list (string * buf)).

(** A component as the factories return it: [n] ports, none connected, numbered in order. *)
Record leaf_ok (n : nat) (c : buf) : Prop := {
  lo_np : b_np c = n;
  lo_C : forall i j, b_C c i j = false;
  lo_order : b_order c = seq 0 n;
  lo_flags : flags_ok c
}.

Lemma leaf_free n c : leaf_ok n c -> free_ports c = seq 0 n.
Proof.
  intros H. unfold free_ports. rewrite (lo_order H). apply filter_all. intros q _. apply free_at_spec.
  intros j _. rewrite !(lo_C H). auto.
Qed.
Lemma leaf_fd n c : leaf_ok n c -> fd c = n.
Proof. intros H. unfold fd. rewrite (leaf_free H), seq_length. reflexivity. Qed.
Lemma leaf_part n c : leaf_ok n c -> part_ok c.
Proof.
  intros H. constructor.
  - unfold order_ok. rewrite (lo_order H), (lo_np H). apply Permutation_refl.
  - apply (lo_flags H).
  - intros i j k _ _ _ E. rewrite (lo_C H) in E. discriminate.
  - intros i j _ _. rewrite !(lo_C H). reflexivity.
Qed.

Lemma many_In p n (f : nat -> buf) m c : In (m, c) (many p n f) <-> exists i, i < n /\ m = (p ++ di i)%string /\ c = f i.
Proof.
  unfold many. rewrite in_map_iff. split.
  - intros (i & [= <- <-] & Hi). apply in_seq in Hi. exists i. split; [lia|auto].
  - intros (i & Hi & -> & ->). exists i. split; [reflexivity|]. apply in_seq. lia.
Qed.
Lemma many_NoDup p n (f : nat -> buf) : NoDup (map fst (many p n f)).
Proof.
  unfold many. rewrite map_map. cbn [fst]. apply FinFun.Injective_map_NoDup; [|apply seq_NoDup].
  intros i j. apply name_inj.
Qed.
Lemma many_fst p n (f : nat -> buf) m : In m (map fst (many p n f)) <-> exists i, i < n /\ m = (p ++ di i)%string.
Proof.
  unfold many. rewrite map_map. cbn [fst]. rewrite in_map_iff. split.
  - intros (i & <- & Hi). apply in_seq in Hi. exists i. split; [lia|reflexivity].
  - intros (i & Hi & ->). exists i. split; [reflexivity|]. apply in_seq. lia.
Qed.

Lemma ends_len (mods : comps) : length (all_ends mods) = list_sum (map (fun nc => fd (snd nc)) mods).
Proof.
  unfold all_ends. induction mods as [|[n c] l IH]; [reflexivity|]. cbn [flat_map fst snd map list_sum fold_right].
  rewrite app_length, map_length, seq_length, IH. reflexivity.
Qed.
Lemma many_sum p n (f : nat -> buf) k : (forall i, i < n -> fd (f i) = k) -> list_sum (map (fun nc => fd (snd nc)) (many p n f)) = k * n.
Proof.
  intros H. unfold many. rewrite map_map. cbn [snd].
  assert (HG : forall l, (forall i, In i l -> fd (f i) = k) -> list_sum (map (fun x => fd (f x)) l) = k * length l).
  { induction l as [|i l IH]; intros H'; [cbn; lia|]. cbn [map list_sum fold_right length]. fold (list_sum (map (fun x => fd (f x)) l)).
    rewrite IH by (intros; apply H'; now right). rewrite (H' i) by now left. lia. }
  rewrite HG, seq_length; [reflexivity|]. intros i Hi. apply in_seq in Hi. apply H. lia.
Qed.

(** A network of the components [mods], stored in the order [cs], in which every port is wired or
    numbered. *)
Record flat_of (mods : comps) (ts : list tconn) (m : nat) (cs : comps) (b : buf) : Prop := {
  fo_nodup : NoDup (map fst cs);
  fo_mods : forall n c, In (n, c) cs <-> In (n, c) mods;
  fo_buf : net_buf x0 d0 cs (map tstr ts) = Ok b;
  fo_part : part_ok b;
  fo_fd : fd b = m;
  fo_np : b_np b = total_ports cs;
  fo_port : forall n k j, In (TE n k j) ts -> nth_error (free_ports b) j = Some (loc cs (n, k));
  fo_wire : forall n1 k1 n2 k2, In (TW n1 k1 n2 k2) ts ->
    b_C b (loc cs (n1, k1)) (loc cs (n2, k2)) = true /\ b_C b (loc cs (n2, k2)) (loc cs (n1, k1)) = true;
  fo_cover : forall n c k, In (n, c) mods -> k < fd c -> exists t, In t ts /\ In (n, k) (tends t);
  fo_ends : forall t n k, In t ts -> In (n, k) (tends t) -> exists c, In (n, c) mods /\ k < fd c;
  fo_nums : forall j, j < m -> exists n k, In (TE n k j) ts
}.

Theorem flat_net (mods : comps) ts m : NoDup (map fst mods) ->
  (forall n c, In (n, c) mods -> good_name n /\ exists k, 0 < k /\ leaf_ok k c) ->
  (forall n c k, In (n, c) mods -> k < fd c -> exists t, In t ts /\ In (n, k) (tends t)) ->
  length (flat_map tends ts) <= list_sum (map (fun nc => fd (snd nc)) mods) ->
  (forall j, j < m -> exists n k, In (TE n k j) ts) -> length (flat_map tnum ts) <= m -> ts <> [] ->
  exists b cs, build x0 d0 mods (map tstr ts) = Ok b /\ flat_of mods ts m cs b.
Proof.
  intros Hnd Hg Hcov Hlen Hj Hjl Hne.
  assert (Hnum : Permutation (flat_map tnum ts) (seq 0 m)).
  { apply Permutation_sym, NoDup_Permutation_bis; [apply seq_NoDup|rewrite seq_length; exact Hjl|].
    intros j Hin. apply in_seq in Hin. destruct (Hj j) as (n & k & H); [lia|]. apply in_flat_map. exists (TE n k j). split; [exact H|now left]. }
  assert (Hfdp : forall n c, In (n, c) mods -> 0 < fd c).
  { intros n c H. destruct (Hg n c H) as (_ & k & Hk & Hl). rewrite (leaf_fd Hl). exact Hk. }
  destruct (@tnet X D x0 d0 mods ts [] m) as (b & cs & Hb & Hndc & _ & HE & Hnb & HN & HI); auto.
  - intros n c H. destruct (Hg n c H) as (G & k & Hk & Hl). split; [exact G|]. split; [apply (leaf_part Hl)|rewrite (lo_np Hl); exact Hk].
  - intros n c H. rewrite tnames_tends. apply in_map_iff. exists (n, 0). split; [reflexivity|].
    destruct (Hcov n c 0 H (Hfdp n c H)) as (t & Ht & He). apply in_flat_map. eauto.
  - intros [n k] H. rewrite app_nil_r. apply in_all_ends in H. destruct H as (c & Hin & Hk).
    destruct (Hcov n c k Hin Hk) as (t & Ht & He). apply in_flat_map. eauto.
  - rewrite app_nil_r, ends_len. exact Hlen.
  - rewrite app_nil_r in HN, HI.
    assert (Hok : forall n c, In (n, c) cs -> part_ok c).
    { intros n c H. apply HE in H. destruct (Hg n c H) as (_ & k & _ & Hl). apply (leaf_part Hl). }
    assert (Hends : forall e, In e (flat_map tends ts) -> In e (all_ends cs)) by (intros e; apply HI).
    assert (Hnames : forall n, In n (flat_map tnames ts) -> good_name n).
    { intros n H. rewrite tnames_tends in H. apply in_map_iff in H. destruct H as ([n' k] & E & H). cbn in E. subst n'.
      apply Hends, in_all_ends in H. destruct H as (c & Hin & _). apply HE in Hin. apply (Hg n c Hin). }
    destruct (net_ports_named Hndc Hok Hends HN Hnames Hnum Hnb) as (Hf & Hp).
    { intros n c H. apply HE in H. destruct (Hg n c H) as (_ & k & _ & Hl). rewrite (lo_order Hl), (lo_np Hl). reflexivity. }
    { intros e. apply HI. }
    exists b, cs. split; [exact Hb|]. constructor; [exact Hndc|exact HE|exact Hnb|exact (net_part_ok Hndc Hok Hends HN Hnames Hnum Hnb)|exact Hf| |exact Hp| |exact Hcov| |exact Hj].
    + apply (net_buf_inv Hnb).
    + intros n1 k1 n2 k2 H. exact (net_wire Hndc Hends HN Hnames Hnb H).
    + intros t n k Ht He. destruct (proj1 (in_all_ends cs n k)) as (c & Hin & Hk); [apply Hends, in_flat_map; eauto|].
      exists c. split; [apply HE; exact Hin|exact Hk].
Qed.

End B.

