(** A circuit of any depth consists of its plain components and the joins between their ports. *)
From Coq Require Import Ring QArith.
From Verif Require Import Base PyStr NetModel NetSpec NetProofs WireProofs StateProofs OrderProofs NetBuild SimModel SimAlg CircuitSpec CircuitProofs RelabelSpec Relabel Flatten NestSpec.
Set Implicit Arguments.
Unset Strict Implicit.
Local Open Scope nat_scope.
Local Open Scope list_scope.

(** ** Names in order of their first mention *)
Lemma remove_filter x (l : list string) : remove string_dec x l = filter (fun y => negb (String.eqb x y)) l.
Proof.
  induction l as [|a l IH]; [reflexivity|]. cbn. destruct (string_dec x a) as [->|N].
  - now rewrite String.eqb_refl, IH.
  - apply String.eqb_neq in N. now rewrite N, IH.
Qed.
Lemma filter_filter {A} (p q : A -> bool) l : filter p (filter q l) = filter (fun x => q x && p x) l.
Proof. induction l as [|a l IH]; [reflexivity|]. cbn. destruct (q a); cbn; rewrite IH; reflexivity. Qed.
Lemma dedup_firsts l : forall seen, dedup l seen = filter (fun s => negb (existsb (String.eqb s) seen)) (firsts l).
Proof.
  induction l as [|a l IH]; intros seen; [reflexivity|]. cbn [dedup firsts filter]. rewrite remove_filter, filter_filter.
  destruct (existsb (String.eqb a) seen) eqn:E; cbn [negb]; rewrite IH; [|f_equal]; apply filter_ext; intros s.
  - destruct (String.eqb_spec a s) as [->|N]; [now rewrite E|reflexivity].
  - cbn [existsb]. rewrite (String.eqb_sym s a). now destruct (String.eqb a s).
Qed.
Lemma filter_all {A} (l : list A) : filter (fun _ => true) l = l.
Proof. induction l as [|a l IH]; [reflexivity|]. cbn. now rewrite IH. Qed.
Lemma mentioned_used conns : mentioned conns = used_names (map clean_conn conns).
Proof.
  unfold mentioned, used_names. rewrite dedup_firsts. cbn [existsb negb].
  assert (E : flat_map (fun c => map strip (split_colon c)) conns = flat_map split_colon (map clean_conn conns)).
  { induction conns as [|c l IH]; [reflexivity|]. cbn [map flat_map]. now rewrite split_clean, IH. }
  rewrite E, filter_all. f_equal. apply filter_ext. intros s. unfold is_int. now destruct (py_int s).
Qed.

Section N.
Variables (K : Type) (k0 : K).
Notation cx := (prod K K).
Notation c0 := (c0 k0).
Notation net := (buf (nat -> cx) Q).
Notation comp := (comp (nat -> cx) Q).
Notation comps := (list (string * net)).
Notation compile := (@compile (nat -> cx) Q (fun _ => c0) 0%Q).
Notation net_buf := (@net_buf (nat -> cx) Q (fun _ => c0) 0%Q).
Notation build := (@build (nat -> cx) Q (fun _ => c0) 0%Q).
Notation made_of := (made_of k0).
Notation joined := (joined k0).
Notation linked := (linked k0).

(** The list of addresses of a network. *)
Lemma flat_located (L : string -> list address) (cs : comps) : (forall n d, In (n, d) cs -> length (L n) = b_np d) ->
  length (flat_map L (map fst cs)) = total_ports cs
  /\ forall p n d q, located cs p n d q -> nth_error (flat_map L (map fst cs)) p = nth_error (L n) q.
Proof.
  induction cs as [|[m c] cs IH]; intros HL.
  - split; [reflexivity|]. intros p n d q (pre & post & E & _). now destruct pre.
  - destruct IH as [IH1 IH2]; [intros n d I; apply HL; now right|]. pose proof (HL m c (or_introl eq_refl)) as Lm. split.
    + cbn [map flat_map fst]. rewrite app_length, IH1, Lm. change (total_ports cs) with (ports_before cs). change (total_ports ((m, c) :: cs)) with (ports_before ((m, c) :: cs)). now rewrite ports_before_cons.
    + intros p n d q (pre & post & E & Ep & Lq). cbn [map flat_map fst]. destruct pre as [|x pre]; injection E as; subst.
      * rewrite nth_error_app1; [reflexivity|]. rewrite Lm. exact Lq.
      * rewrite ports_before_cons. rewrite nth_error_app2 by (rewrite Lm; lia).
        rewrite <- (IH2 (ports_before pre + q) n d q); [f_equal; rewrite Lm; lia|]. exists pre, post. auto.
Qed.

Lemma assoc_map {A B} (f : string -> A -> B) n (l : list (string * A)) :
  assoc String.eqb n (map (fun m => (fst m, f (fst m) (snd m))) l) = match assoc String.eqb n l with Some x => Some (f n x) | None => None end.
Proof. induction l as [|[m x] l IH]; [reflexivity|]. cbn. destruct (String.eqb_spec n m) as [->|N]; [reflexivity|exact IH]. Qed.
Lemma assoc_compiled (mods : list (string * comp)) (ms : comps) n d :
  Forall2 (fun c m => fst m = fst c /\ compile (snd c) = Ok (snd m)) mods ms -> assoc String.eqb n ms = Some d ->
  exists t, assoc String.eqb n mods = Some t /\ compile t = Ok d.
Proof.
  induction 1 as [|[m t] [m' d'] l l' [E1 E2] F IH]; [discriminate|]. cbn in E1, E2. subst m'. cbn [assoc].
  destruct (String.eqb_spec n m) as [->|N]; [intros [= <-]; eauto|exact IH].
Qed.
Lemma assoc_in {A} n (l : list (string * A)) x : assoc String.eqb n l = Some x -> In (n, x) l.
Proof. induction l as [|[m y] l IH]; [discriminate|]. cbn. destruct (String.eqb_spec n m) as [->|N]; [intros [= ->]; auto|auto]. Qed.

Definition child (mods : list (string * comp)) (n : string) : list address :=
  match assoc String.eqb n mods with Some t => map (under n) (ports_of t) | None => [] end.
Lemma ports_net mods conns : ports_of (Net mods conns) = flat_map (child mods) (mentioned conns).
Proof.
  cbn [ports_of]. apply flat_map_ext. intros n. unfold child. rewrite (assoc_map (fun n t => map (under n) (ports_of t))).
  now destruct (assoc String.eqb n mods).
Qed.

Section Step.
Variables (mods : list (string * comp)) (conns : list string) (cs : comps) (b : net).
Hypothesis HN : map fst cs = mentioned conns.
Hypothesis ND : NoDup (map fst cs).
Hypothesis HB : net_buf cs (map clean_conn conns) = Ok b.
Hypothesis HO : orders_ok cs.
Hypothesis HC : forall n d, In (n, d) cs -> exists t, assoc String.eqb n mods = Some t /\ compile t = Ok d /\ made_of t d.

Lemma child_len n d : In (n, d) cs -> length (child mods n) = b_np d.
Proof. intros I. destruct (HC I) as (t & A & _ & M). unfold child. rewrite A, map_length. apply (mo_len M). Qed.
Lemma net_len : length (ports_of (Net mods conns)) = b_np b.
Proof.
  rewrite ports_net, <- HN. rewrite (proj1 (flat_located child_len)). symmetry. apply (in_np (built_net ND HB)).
Qed.
(** Where the ports of a network are in its components. *)
Lemma net_at i a : nth_error (ports_of (Net mods conns)) i = Some a ->
  exists n d q t a', located cs i n d q /\ assoc String.eqb n mods = Some t /\ compile t = Ok d /\ made_of t d
    /\ nth_error (ports_of t) q = Some a' /\ a = under n a'.
Proof.
  intros E. assert (Li : i < total_ports cs).
  { rewrite <- (proj1 (flat_located child_len)), HN, <- ports_net. apply nth_error_Some. congruence. }
  destruct (located_exists Li) as (n & d & q & L). destruct (HC (located_In L)) as (t & A & B & M).
  rewrite ports_net, <- HN, (proj2 (flat_located child_len) _ _ _ _ L) in E. unfold child in E. rewrite A in E.
  rewrite nth_error_map in E. destruct (nth_error (ports_of t) q) as [a'|] eqn:E'; [|discriminate]. injection E as <-.
  exists n, d, q, t, a'. auto 10.
Qed.
Lemma nth_once {A} (l : list A) i j a : NoDup l -> nth_error l i = Some a -> nth_error l j = Some a -> i = j.
Proof. intros N E1 E2. apply (proj1 (NoDup_nth_error l) N); [apply nth_error_Some; congruence|congruence]. Qed.
Lemma under_inj n n' a a' : under n a = under n' a' -> n = n' /\ a = a'.
Proof. destruct a, a'. unfold under. cbn. intros [= -> -> ->]. auto. Qed.
Lemma net_once : NoDup (ports_of (Net mods conns)).
Proof.
  apply NoDup_nth_error. intros i j Li E. destruct (nth_error (ports_of (Net mods conns)) i) as [a|] eqn:Ei; [|apply nth_error_None in Ei; lia].
  symmetry in E. destruct (net_at Ei) as (n & d & q & t & a1 & L & A & B & M & E1 & ->). destruct (net_at E) as (n' & d' & q' & t' & a2 & L' & A' & B' & M' & E2 & EU).
  apply under_inj in EU. destruct EU as [<- <-]. rewrite A in A'. injection A' as <-. rewrite (nth_once (mo_once M) E1 E2) in L.
  exact (located_same ND L L').
Qed.
Lemma leaf_under n t p conns' : assoc String.eqb n mods = Some t -> leaf_at (n :: p) (Net mods conns') = leaf_at p t.
Proof. intros A. cbn. now rewrite A. Qed.

Lemma joined_in n t a a' : assoc String.eqb n mods = Some t -> linked t a a' -> linked (Net mods conns) (under n a) (under n a').
Proof. intros A [J|J]; [left|right]; now apply j_in with t. Qed.

Lemma net_end n z i a : names_port cs n z i -> nth_error (ports_of (Net mods conns)) i = Some a -> end_of k0 mods n z a.
Proof.
  intros HP E. destruct (names_port_located HO HP) as (c & q & L & R & _). destruct (net_at E) as (n' & d & q' & t & a' & L' & A & B & M & E' & ->).
  destruct (located_fun L L') as (<- & <- & <-). exists t, c, q, a'. auto.
Qed.
Lemma end_net n z i a : names_port cs n z i -> end_of k0 mods n z a -> nth_error (ports_of (Net mods conns)) i = Some a.
Proof.
  intros HP (t & d & r & a' & A & B & R & E & ->). destruct (names_port_located HO HP) as (c & q & L & R' & _).
  destruct (HC (located_In L)) as (t' & A' & B' & M). rewrite A in A'. injection A' as <-. rewrite B in B'. injection B' as <-.
  rewrite (resolves_fun R R') in E. rewrite ports_net, <- HN, (proj2 (flat_located child_len) _ _ _ _ L). unfold child. rewrite A, nth_error_map, E. reflexivity.
Qed.
Lemma wires_joined c i j a a' : In c conns -> wires cs (clean_conn c) i j -> nth_error (ports_of (Net mods conns)) i = Some a ->
  nth_error (ports_of (Net mods conns)) j = Some a' -> joined (Net mods conns) a a'.
Proof.
  intros I (n1 & s1 & z1 & n2 & s2 & z2 & W & W1 & W2 & W3 & W4) E E'. rewrite split_clean in W.
  eapply j_here; eauto using net_end.
Qed.
Lemma joined_cases a a' : joined (Net mods conns) a a' ->
  (exists c i j, In c conns /\ wires cs (clean_conn c) i j /\ nth_error (ports_of (Net mods conns)) i = Some a /\ nth_error (ports_of (Net mods conns)) j = Some a')
  \/ exists n t x x', assoc String.eqb n mods = Some t /\ joined t x x' /\ a = under n x /\ a' = under n x'.
Proof.
  intros J. inversion J as [m0 cn0 c n1 s1 z1 n2 s2 z2 a1 a2 I W P1 P2 E1 E2|m0 cn0 n t x x' A J']; subst.
  - left. destruct (built_wires HB (in_map clean_conn _ _ I)) as (i & j & HW); [rewrite split_clean, W; reflexivity|].
    exists c, i, j. split; [exact I|]. split; [exact HW|]. destruct HW as (m1 & r1 & y1 & m2 & r2 & y2 & V & V1 & V2 & V3 & V4).
    rewrite split_clean, W in V. injection V as <- <- <- <-. rewrite P1 in V1. rewrite P2 in V2. injection V1 as <-. injection V2 as <-.
    split; eapply end_net; eassumption.
  - right. exists n, t, x, x'. auto.
Qed.

Lemma net_made : made_of (Net mods conns) b.
Proof.
  pose proof (built_net ND HB) as Hb. constructor.
  - exact net_len.
  - exact net_once.
  - intros i path q E. destruct (net_at E) as (n & d & q' & t & [p' r] & L & A & B & M & E' & EU). unfold under in EU. injection EU as -> ->. cbn [fst snd] in *.
    destruct (mo_at M E') as (c & Lc & Lr & H1 & H2 & H3 & H4). exists c. rewrite (leaf_under _ _ A). split; [exact Lc|]. split; [exact Lr|].
    rewrite (in_src Hb), (in_det Hb), (in_act Hb), (in_del Hb), !(block_vec_located _ _ L). auto.
  - intros i j path q path' q' w E E'. destruct (net_at E) as (n & d & r & t & [p1 x1] & L & A & B & M & F & EU). destruct (net_at E') as (n' & d' & r' & t' & [p2 x2] & L' & A' & B' & M' & F' & EU').
    unfold under in EU, EU'. injection EU as -> ->. injection EU' as -> ->. cbn [fst snd] in *. destruct (string_dec n n') as [<-|NE].
    + rewrite A in A'. injection A' as <-. rewrite B in B'. injection B' as <-. rewrite (net_S_located w Hb ND L L').
      destruct (mo_S M w F F') as [S1 S2]. split.
      * intros c EP. injection EP as EP. rewrite (leaf_under _ _ A). apply S1. exact EP.
      * intros NE. apply S2. congruence.
    + rewrite (S_apart w Hb L L' NE). split; [intros c EP; congruence|reflexivity].
  - intros i j path q path' q' E E'. rewrite (in_C Hb). destruct (net_at E) as (n & d & r & t & [p1 x1] & L & A & B & M & F & EU). destruct (net_at E') as (n' & d' & r' & t' & [p2 x2] & L' & A' & B' & M' & F' & EU').
    pose proof EU as U. pose proof EU' as U'. unfold under in U, U'. injection U as -> ->. injection U' as -> ->. cbn [fst snd] in *.
    rewrite (leaf_under _ _ A). split.
    + intros [HI|(conn & Ic & W)].
      * destruct L as (pre & post & EL & Ei & Lr). apply (inner_located j EL Ei Lr) in HI. destruct HI as (j' & Lj & Ej & HJ).
        destruct (located_fun L' (ex_intro _ pre (ex_intro _ post (conj EL (conj Ej Lj))))) as (-> & -> & ->).
        rewrite A in A'. injection A' as <-. apply (mo_C M F F') in HJ. destruct HJ as [(-> & HJ)|HJ]; [left; auto|right].
        exact (joined_in A HJ).
      * right. apply in_map_iff in Ic. destruct Ic as (c & <- & Ic). destruct W as [W|W]; [left|right]; eapply wires_joined; eauto.
    + intros [(EP & c & Lc & HJ)|HJ].
      * injection EP as <- <-. left. rewrite A in A'. injection A' as <-. rewrite B in B'. injection B' as <-.
        destruct L as (pre & post & EL & Ei & Lr). apply (inner_located j EL Ei Lr). exists r'.
        destruct L' as (pre' & post' & EL' & Ej & Lr'). split; [exact Lr'|]. split.
        { rewrite EL in EL'. pose proof ND as ND'. rewrite EL in ND'. destruct (decomp_unique ND' eq_refl EL') as (<- & _). exact Ej. }
        apply (mo_C M F F'). left. eauto.
      * assert (X : forall i j a a', nth_error (ports_of (Net mods conns)) i = Some a -> nth_error (ports_of (Net mods conns)) j = Some a' -> joined (Net mods conns) a a' ->
           (exists conn, In conn (map clean_conn conns) /\ wires cs conn i j) \/ exists n t x x', assoc String.eqb n mods = Some t /\ joined t x x' /\ a = under n x /\ a' = under n x').
        { clear - ND HB HN HO HC. intros i j a a' Ei Ej J. destruct (joined_cases J) as [(c & i0 & j0 & I & W & G1 & G2)|H]; [left|right; exact H].
          rewrite (nth_once net_once Ei G1), (nth_once net_once Ej G2). exists (clean_conn c). split; [now apply in_map|exact W]. }
        assert (Y : (exists m t x x', assoc String.eqb m mods = Some t /\ linked t x x' /\ (n :: p1, x1) = under m x /\ (n' :: p2, x2) = under m x') -> inner cs i j).
        { intros (m & t0 & [y1 y2] & [y3 y4] & A0 & J0 & G1 & G2). unfold under in G1, G2. cbn [fst snd] in *. injection G1 as <- <- <-. injection G2 as -> <- <-.
          rewrite A in A0. injection A0 as <-. rewrite A in A'. injection A' as <-. rewrite B in B'. injection B' as <-.
          destruct L as (pre & post & EL & Ei & Lr). apply (inner_located j EL Ei Lr). exists r'.
          destruct L' as (pre' & post' & EL' & Ej & Lr'). split; [exact Lr'|]. split.
          { rewrite EL in EL'. pose proof ND as ND'. rewrite EL in ND'. destruct (decomp_unique ND' eq_refl EL') as (<- & _). exact Ej. }
          apply (mo_C M F F'). now right. }
        destruct HJ as [HJ|HJ].
        { destruct (X _ _ _ _ E E' HJ) as [(cn & I & W)|(m & t0 & x & x' & A0 & J0 & G1 & G2)]; [right; eauto|left; apply Y].
          exists n, t, (p1, x1), (p2, x2). unfold under in G1, G2. destruct x, x'. cbn [fst snd] in *. injection G1 as <- <- <-. injection G2 as -> <- <-.
          rewrite A in A0. injection A0 as <-. repeat split; auto. now left. }
        { destruct (X _ _ _ _ E' E HJ) as [(cn & I & W)|(m & t0 & x & x' & A0 & J0 & G1 & G2)]; [right; eauto|left; apply Y].
          exists n, t, (p1, x1), (p2, x2). unfold under in G1, G2. destruct x, x'. cbn [fst snd] in *. injection G1 as <- <- <-. injection G2 as -> <- <-.
          rewrite A in A0. injection A0 as <-. repeat split; auto. now right. }
Qed.
End Step.

(** Every circuit is made of its plain components. *)
Theorem compile_made (t : comp) : tidy k0 t -> forall b, compile t = Ok b -> made_of t b.
Proof.
  induction t as [c|mods conns IH] using comp_ind'; intros HT b Hc.
  - cbn in Hc. apply check_buf_Ok in Hc. subst c.
    assert (X : forall i path q, nth_error (ports_of (Leaf b)) i = Some (path, q) -> path = [] /\ q = i /\ i < b_np b).
    { intros i path q E. cbn [ports_of] in E. rewrite nth_error_map in E. destruct (nth_error (seq 0 (b_np b)) i) as [r|] eqn:Er; [|discriminate].
      assert (Li : i < b_np b) by (rewrite <- (seq_length (b_np b) 0); apply nth_error_Some; congruence).
      rewrite (nth_error_nth' _ 0) in Er by (now rewrite seq_length). rewrite seq_nth in Er by exact Li. injection Er as <-. injection E as <- <-. auto. }
    constructor.
    + cbn. now rewrite map_length, seq_length.
    + cbn. apply (NoDup_map_inv snd). rewrite map_map. cbn. rewrite map_id. apply seq_NoDup.
    + intros i path q E. destruct (X _ _ _ E) as (-> & -> & L). exists b. cbn. auto 10.
    + intros i j path q path' q' w E E'. destruct (X _ _ _ E) as (-> & -> & L), (X _ _ _ E') as (-> & -> & L'). cbn. split; [intros c _ [= <-]; reflexivity|congruence].
    + intros i j path q path' q' E E'. destruct (X _ _ _ E) as (-> & -> & L), (X _ _ _ E') as (-> & -> & L'). split.
      * intros H. left. split; [reflexivity|]. exists b. auto.
      * intros [(_ & c & [= <-] & H)|[H|H]]; [exact H|inversion H..].
  - destruct (compile_net Hc) as (ms & Hb & Hm). unfold NetModel.build in Hb. apply bind_Ok in Hb. destruct Hb as ([[cs b']|] & H & E); [|discriminate].
    apply Ok_inj in E. subst b'. destruct (set_buffers_inv H) as (Hn & Hf & HB). pose proof (set_buffers_NoDup H) as ND.
    inversion HT as [|m0 c0' HT' E1]; subst. 
    assert (HC : forall n d, In (n, d) cs -> exists t, assoc String.eqb n mods = Some t /\ compile t = Ok d /\ made_of t d).
    { intros n d I. destruct (assoc_compiled Hm (Hf n d I)) as (t & A & B). exists t. split; [exact A|]. split; [exact B|].
      apply (IH n t (assoc_in A)); [apply (HT' n t (assoc_in A))|exact B]. }
    eapply net_made; try eassumption.
    + now rewrite mentioned_used.
    + intros n d I. destruct (HC n d I) as (t & A & B & _). exact (proj2 (HT' n t (assoc_in A)) d B).
Qed.

(** ** The same circuit *)
Definition address_dec (a a' : address) : {a = a'} + {a <> a'}.
Proof. decide equality; [apply Nat.eq_dec|apply (list_eq_dec string_dec)]. Defined.
Fixpoint index (l : list address) (a : address) : nat :=
  match l with [] => 0 | x :: r => if address_dec a x then 0 else S (index r a) end.
Lemma index_at l a : In a l -> nth_error l (index l a) = Some a.
Proof. induction l as [|x r IH]; [intros []|]. cbn. destruct (address_dec a x) as [->|N]; [reflexivity|]. intros [->|H]; [congruence|auto]. Qed.
Lemma index_nth l i a : NoDup l -> nth_error l i = Some a -> index l a = i.
Proof. intros N E. apply (nth_once N (index_at (nth_error_In _ _ E)) E). Qed.

(** The number in [t'] of port [i] of [t]. *)
Definition renumber (h : list string -> list string) (t t' : comp) (i : nat) : nat :=
  match nth_error (ports_of t) i with Some (path, q) => index (ports_of t') (h path, q) | None => 0 end.

Lemma same_sym h hi t t' : same_circuit k0 h hi t t' -> same_circuit k0 hi h t' t.
Proof. intros [A B C D]. constructor; auto. Qed.
Lemma linked_sym t a a' : linked t a a' -> linked t a' a.
Proof. intros [H|H]; [right|left]; exact H. Qed.

Section Same.
Variables (h hi : list string -> list string) (t t' : comp) (b b' : net).
Hypothesis SC : same_circuit k0 h hi t t'.
Hypothesis M : made_of t b.
Hypothesis M' : made_of t' b'.

Lemma renumber_at i path q : nth_error (ports_of t) i = Some (path, q) ->
  nth_error (ports_of t') (renumber h t t' i) = Some (h path, q).
Proof. intros E. unfold renumber. rewrite E. apply index_at. apply (cc_to SC). eapply nth_error_In; exact E. Qed.
Lemma at_lt i : i < b_np b -> exists path q, nth_error (ports_of t) i = Some (path, q).
Proof.
  intros L. rewrite <- (mo_len M) in L. destruct (nth_error (ports_of t) i) as [[path q]|] eqn:E; [eauto|]. apply nth_error_None in E. lia.
Qed.
Lemma renumber_lt i : i < b_np b -> renumber h t t' i < b_np b'.
Proof. intros L. destruct (at_lt L) as (p & q & E). apply renumber_at in E. rewrite <- (mo_len M'). apply nth_error_Some. congruence. Qed.
Lemma renumber_back i : i < b_np b -> renumber hi t' t (renumber h t t' i) = i.
Proof.
  intros L. destruct (at_lt L) as (p & q & E). unfold renumber at 1. rewrite (renumber_at E).
  destruct (cc_to SC (nth_error_In _ _ E)) as (-> & _). now apply index_nth; [apply (mo_once M)|].
Qed.
Lemma np_le : b_np b <= b_np b'.
Proof.
  rewrite <- (seq_length (b_np b) 0), <- (seq_length (b_np b') 0), <- (map_length (renumber h t t')). apply NoDup_incl_length.
  - apply (NoDup_map_inv (renumber hi t' t)). rewrite map_map, (map_ext_in _ (fun i => i)); [rewrite map_id; apply seq_NoDup|].
    intros i I. apply in_seq in I. apply renumber_back. lia.
  - intros j I. apply in_map_iff in I. destruct I as (i & <- & I). apply in_seq in I. apply in_seq. split; [lia|]. cbn. apply renumber_lt. lia.
Qed.
Lemma linked_to p q p' q' : In (p, q) (ports_of t) -> In (p', q') (ports_of t) -> linked t (p, q) (p', q') -> linked t' (h p, q) (h p', q').
Proof. intros I I' [J|J]; [|apply linked_sym]; apply (cc_join SC); auto. Qed.
End Same.

Theorem same_relabels h hi t t' b b' : same_circuit k0 h hi t t' -> made_of t b -> made_of t' b' ->
  relabels (renumber h t t') (renumber hi t' t) b b'.
Proof.
  intros SC M M'. pose proof (same_sym SC) as SC'. assert (NP : b_np b' = b_np b) by (apply Nat.le_antisymm; [exact (np_le SC' M' M)|exact (np_le SC M M')]). constructor.
  - exact NP.
  - intros i L. split; [rewrite <- NP; exact (renumber_lt SC M M' L)|exact (renumber_back SC M L)].
  - intros i L. rewrite <- NP in L |- *. split; [rewrite NP; exact (renumber_lt SC' M' M L)|exact (renumber_back SC' M' L)].
  - intros i j Li Lj. destruct (at_lt M Li) as (p & q & E), (at_lt M Lj) as (p' & q' & E').
    pose proof (renumber_at SC E) as F. pose proof (renumber_at SC E') as F'. apply eq_true_iff_eq. rewrite (mo_C M E E'), (mo_C M' F F').
    destruct (cc_to SC (nth_error_In _ _ E)) as (B1 & _ & Lf). destruct (cc_to SC (nth_error_In _ _ E')) as (B2 & _ & _). rewrite Lf. split.
    + intros [(EP & H)|H]; [left; split; [congruence|exact H]|right].
      apply (linked_to SC' (nth_error_In _ _ F) (nth_error_In _ _ F')) in H. rewrite B1, B2 in H. exact H.
    + intros [(EP & H)|H]; [left; split; [congruence|exact H]|right]. exact (linked_to SC (nth_error_In _ _ E) (nth_error_In _ _ E') H).
  - intros i j w Li Lj. destruct (at_lt M Li) as (p & q & E), (at_lt M Lj) as (p' & q' & E').
    pose proof (renumber_at SC E) as F. pose proof (renumber_at SC E') as F'.
    destruct (cc_to SC (nth_error_In _ _ E)) as (B1 & _ & Lf). destruct (cc_to SC (nth_error_In _ _ E')) as (B2 & _ & _).
    destruct (mo_S M w E E') as [S1 S2], (mo_S M' w F F') as [T1 T2]. destruct (list_eq_dec string_dec p p') as [<-|NE].
    + destruct (mo_at M E) as (c & Lc & _). rewrite (S1 c eq_refl Lc). apply T1; [reflexivity|]. now rewrite Lf.
    + rewrite S2 by exact NE. apply T2. congruence.
  - intros i Li. destruct (at_lt M Li) as (p & q & E). pose proof (renumber_at SC E) as F. destruct (cc_to SC (nth_error_In _ _ E)) as (B1 & _ & Lf).
    destruct (mo_at M E) as (c & Lc & _ & H1 & H2 & H3 & H4). destruct (mo_at M' F) as (c' & Lc' & _ & G1 & G2 & G3 & G4).
    rewrite Lf, Lc in Lc'. injection Lc' as <-. repeat split; congruence.
Qed.

(** For concrete circuits the joins can be compared through the wiring. *)
Lemma join_by_wiring (h : list string -> list string) t t' b b' : made_of t b -> made_of t' b' ->
  (forall path q, In (path, q) (ports_of t) -> In (h path, q) (ports_of t')) ->
  (forall path c q q', leaf_at path t' = Some c -> b_C c q q' = false) ->
  (forall i j, i < b_np b -> j < b_np b -> b_C b i j = true -> b_C b' (renumber h t t' i) (renumber h t t' j) = true) ->
  forall p q p' q', In (p, q) (ports_of t) -> In (p', q') (ports_of t) -> joined t (p, q) (p', q') -> linked t' (h p, q) (h p', q').
Proof.
  intros M M' HT HL HW p q p' q' I I' J. apply In_nth_error in I, I'. destruct I as [i E], I' as [j E'].
  assert (R : forall i path q, nth_error (ports_of t) i = Some (path, q) -> i < b_np b /\ nth_error (ports_of t') (renumber h t t' i) = Some (h path, q)).
  { intros k path r F. split; [rewrite <- (mo_len M); apply nth_error_Some; congruence|]. unfold renumber. rewrite F. apply index_at, HT. eapply nth_error_In; exact F. }
  destruct (R _ _ _ E) as [Li F], (R _ _ _ E') as [Lj F'].
  assert (HC : b_C b i j = true) by (apply (mo_C M E E'); right; left; exact J).
  apply (HW i j Li Lj) in HC. apply (mo_C M' F F') in HC. destruct HC as [(_ & c & Lc & X)|X]; [|exact X]. rewrite (HL _ _ _ _ Lc) in X. discriminate.
Qed.
End N.
