(** Derivatives of the fields of circuits with active components. *)
From Coq Require Import Reals Lra Lia Ring QArith FunctionalExtensionality.
From Verif Require Import Base NetModel NetSpec SimModel SimAlg SimSpec SimNodes SimProofs SimDelay SimRegular Gauss Family
  ActModel ActSpec ActProofs ActSim Deriv DerivNet TangentSpec.
Set Implicit Arguments.
Unset Strict Implicit.
Local Open Scope list_scope.
Local Open Scope nat_scope.

Local Notation V := fieldv.
Local Arguments Nat.ltb : simpl never.

Section Ind.
Variable P : dcomp -> Prop.
Hypothesis HP : forall p f J, P (DPlain p f J).
Hypothesis HN : forall cs, Forall P cs -> P (DNested cs).
Fixpoint dcomp_ind' (c : dcomp) : P c :=
  match c with
  | DPlain p f J => HP p f J
  | DNested cs => HN ((fix go (cs : list dcomp) : Forall P cs :=
      match cs with [] => Forall_nil P | c :: r => Forall_cons c (dcomp_ind' c) (go r) end) cs)
  end.
End Ind.

Lemma ports_at th d : a_ports (at_param th d) = d_ports d.
Proof.
  induction d as [p f J|cs IH] using dcomp_ind'; [reflexivity|]. cbn. induction IH as [|c r Hc _ IH]; [reflexivity|].
  cbn. now rewrite Hc, IH.
Qed.
Lemma np_at th d : a_np (at_param th d) = length (d_ports d).
Proof. unfold a_np. now rewrite ports_at. Qed.

(** Port [i] is active. *)
Definition actp (d : dcomp) (off i : nat) : bool := snd (nth (i - off) (d_ports d) (false, false)).

(** The derivative as a function. *)
Fixpoint jac (d : dcomp) (off : nat) (y dy : nat -> V) : nat -> V :=
  match d with
  | DPlain p _ J =>
      if existsb snd p then fun i => nth (i - off) (J (map y (seq off (length p))) (map dy (seq off (length p)))) zfield
      else dy
  | DNested cs =>
      (fix go (cs : list dcomp) (off : nat) : nat -> V :=
         match cs with
         | [] => dy
         | c :: r => fun i => if i <? off + length (d_ports c) then jac c off y dy i else go r (off + length (d_ports c)) i
         end) cs off
  end.
Fixpoint jacs (cs : list dcomp) (off : nat) (y dy : nat -> V) : nat -> V :=
  match cs with
  | [] => dy
  | c :: r => fun i => if i <? off + length (d_ports c) then jac c off y dy i else jacs r (off + length (d_ports c)) y dy i
  end.
Lemma jac_nested cs off y dy : jac (DNested cs) off y dy = jacs cs off y dy.
Proof. revert off. induction cs as [|c r IH]; intros off; [reflexivity|]. cbn. rewrite <- IH. reflexivity. Qed.
Fixpoint dacts_list (cs : list dcomp) (off : nat) (y dy o : nat -> V) : Prop :=
  match cs with [] => True | c :: r => dacts c off y dy o /\ dacts_list r (off + length (d_ports c)) y dy o end.
Lemma dacts_nested cs off y dy o : dacts (DNested cs) off y dy o = dacts_list cs off y dy o.
Proof. revert off. induction cs as [|c r IH]; intros off; cbn; [reflexivity|]. rewrite <- IH. reflexivity. Qed.
Lemma diff_nested nwl th0 cs : differentiable nwl th0 (DNested cs) <-> Forall (differentiable nwl th0) cs.
Proof.
  induction cs as [|c r IH]; cbn; [split; auto|]. cbn in IH. rewrite IH. split.
  - intros [H1 H2]. now constructor.
  - intros H. inversion H; auto.
Qed.

(** All ports of an active component are active. *)
Fixpoint even (d : dcomp) : Prop :=
  match d with
  | DPlain p _ _ => existsb snd p = true -> Forall (fun q => snd q = true) p
  | DNested cs => (fix go (cs : list dcomp) : Prop := match cs with [] => True | c :: r => even c /\ go r end) cs
  end.
Lemma even_nested cs : even (DNested cs) <-> Forall even cs.
Proof.
  induction cs as [|c r IH]; cbn; [split; auto|]. cbn in IH. rewrite IH. split.
  - intros [H1 H2]. now constructor.
  - intros H. inversion H; auto.
Qed.
Lemma aligned_even th d : aligned (at_param th d) -> even d.
Proof.
  induction d as [p f J|cs IH] using dcomp_ind'.
  - cbn. intros H E. apply (H E).
  - cbn [at_param]. rewrite aligned_nested, even_nested. induction IH as [|c r Hc _ IH]; [constructor|].
    cbn. intros (H1 & _ & H3). constructor; auto.
Qed.

Lemma actp_cons c r off i : off <= i -> actp (DNested (c :: r)) off i =
  if i <? off + length (d_ports c) then actp c off i else actp (DNested r) (off + length (d_ports c)) i.
Proof.
  intros L'. unfold actp. cbn [d_ports flat_map]. destruct (Nat.ltb_spec i (off + length (d_ports c))) as [L|L].
  - rewrite app_nth1 by lia. reflexivity.
  - rewrite app_nth2 by lia. do 2 f_equal. lia.
Qed.
Lemma plain_act p f J off i : (existsb snd p = true -> Forall (fun q => snd q = true) p) -> off <= i < off + length p ->
  actp (DPlain p f J) off i = existsb snd p.
Proof.
  intros H L. unfold actp. cbn. assert (I : In (nth (i - off) p (false, false)) p) by (apply nth_In; lia).
  destruct (existsb snd p) eqn:E; [specialize (H eq_refl); rewrite Forall_forall in H; auto|].
  destruct (snd (nth (i - off) p (false, false))) eqn:S0; auto. rewrite <- E. symmetry. apply existsb_exists. eauto.
Qed.
Lemma nth_map_seq B (d0 : B) (f : nat -> B) off n k : k < n -> nth k (map f (seq off n)) d0 = f (off + k).
Proof. intros L. rewrite nth_indep with (d' := f 0) by (rewrite map_length, seq_length; auto). rewrite map_nth, seq_nth; auto. Qed.

Lemma jac_dacts nwl th0 d : differentiable nwl th0 d -> forall off y dy o,
  (forall i, off <= i < off + length (d_ports d) -> o i = jac d off y dy i) -> dacts d off y dy o.
Proof.
  induction d as [p f J|cs IH] using dcomp_ind'; intros HD off y dy o H.
  - cbn in *. destruct (existsb snd p); [|exact H]. destruct (HD eq_refl) as [LJ _].
    set (l := J _ _) in *. assert (Ll : length l = length p) by (apply LJ; rewrite map_length, seq_length; auto).
    apply nth_ext with (d := zfield) (d' := zfield); [rewrite map_length, seq_length; auto|].
    intros k Lk. rewrite nth_map_seq by lia. rewrite H by lia. f_equal. lia.
  - rewrite diff_nested in HD. rewrite dacts_nested. rewrite jac_nested in H. cbn in H.
    revert off H. induction IH as [|c r Hc _ IH]; intros off H; [exact I|]. inversion HD as [|c0 r0 D1 D2]; subst.
    cbn in *. rewrite app_length in H. split.
    + apply Hc; auto. intros i Li. rewrite H by lia. destruct (Nat.ltb_spec i (off + length (d_ports c))); [reflexivity|lia].
    + apply IH; auto. intros i Li. rewrite H by lia. destruct (Nat.ltb_spec i (off + length (d_ports c))); [lia|reflexivity].
Qed.

Lemma jac_inactive d : even d -> forall off y dy i, off <= i < off + length (d_ports d) -> actp d off i = false -> jac d off y dy i = dy i.
Proof.
  induction d as [p f J|cs IH] using dcomp_ind'; intros HE off y dy i Li E.
  - rewrite plain_act in E by auto. cbn. now rewrite E.
  - rewrite even_nested in HE. rewrite jac_nested. revert off Li E. induction IH as [|c r Hc _ IH]; intros off Li E; [reflexivity|].
    inversion HE as [|c0 r0 E1 E2]; subst. rewrite actp_cons in E by lia. cbn in *. rewrite app_length in Li.
    destruct (Nat.ltb_spec i (off + length (d_ports c))); [apply Hc; auto; lia|apply IH; auto; lia].
Qed.

Lemma jac_ext d : even d -> forall off y y' dy dy',
  (forall i, off <= i < off + length (d_ports d) -> actp d off i = true -> y i = y' i /\ dy i = dy' i) ->
  forall i, off <= i < off + length (d_ports d) -> actp d off i = true -> jac d off y dy i = jac d off y' dy' i.
Proof.
  induction d as [p f J|cs IH] using dcomp_ind'; intros HE off y y' dy dy' H i Li E.
  - rewrite plain_act in E by auto. cbn. rewrite E.
    assert (Q : forall j, In j (seq off (length p)) -> y j = y' j /\ dy j = dy' j).
    { intros j Ij. apply in_seq in Ij. apply H; [cbn; lia|]. rewrite plain_act; auto. }
    rewrite (map_ext_in y y') by (intros; now apply Q). rewrite (map_ext_in dy dy') by (intros; now apply Q). reflexivity.
  - rewrite even_nested in HE. rewrite !jac_nested. revert off H Li E. induction IH as [|c r Hc _ IH]; intros off H Li E; [cbn in Li; lia|].
    inversion HE as [|c0 r0 E1 E2]; subst. rewrite actp_cons in E by lia. cbn [jacs]. cbn [d_ports flat_map] in *. rewrite app_length in *.
    destruct (Nat.ltb_spec i (off + length (d_ports c))) as [L|L].
    + apply Hc; auto; [|lia]. intros j Lj Ej. apply H; [lia|]. rewrite actp_cons by lia. destruct (Nat.ltb_spec j (off + length (d_ports c))); [auto|lia].
    + apply IH; auto; [|cbn; lia]. intros j Lj Ej. cbn in Lj. apply H; [lia|]. rewrite actp_cons by lia. destruct (Nat.ltb_spec j (off + length (d_ports c))); [lia|auto].
Qed.

(** Ports that are not active keep their fields. *)
Lemma acts_inactive th d : aligned (at_param th d) -> forall off y o, acts zfield (at_param th d) off y o ->
  forall i, off <= i < off + length (d_ports d) -> actp d off i = false -> o i = y i.
Proof.
  induction d as [p f J|cs IH] using dcomp_ind'; intros HA off y o H i Li E.
  - rewrite plain_act in E; auto; [|apply (aligned_even HA)]. cbn in H. rewrite E in H. apply H. exact Li.
  - cbn [at_param] in *. rewrite aligned_nested in HA. rewrite acts_nested in H. revert off H Li E.
    induction IH as [|c r Hc _ IH]; intros off H Li E; [cbn in Li; lia|]. rewrite actp_cons in E by lia. cbn in *. rewrite app_length in Li.
    destruct HA as (A1 & _ & A2), H as [H1 H2]. rewrite np_at in H2.
    destruct (Nat.ltb_spec i (off + length (d_ports c))); [apply Hc with off; auto; lia|apply IH with (off + length (d_ports c)); auto; lia].
Qed.

Lemma around_and th0 (P Q : R -> Prop) : around th0 P -> around th0 Q -> around th0 (fun th => P th /\ Q th).
Proof.
  intros (d & Hd & HP) (d' & Hd' & HQ). exists (Rmin d d'). split; [now apply Rmin_glb_lt|].
  intros th L. split; [apply HP|apply HQ]; eapply Rlt_le_trans; eauto using Rmin_l, Rmin_r.
Qed.
Lemma around_mono th0 (P Q : R -> Prop) : (forall th, P th -> Q th) -> around th0 P -> around th0 Q.
Proof. intros H (d & Hd & HP). exists d. split; auto. Qed.

Lemma jac_rate nwl th0 d : differentiable nwl th0 d -> even d -> forall off (Y O : R -> nat -> V) dy,
  around th0 (fun th => exists y o : nat -> V, acts zfield (at_param th d) off y o /\
    forall i, off <= i < off + length (d_ports d) -> actp d off i = true -> y i = Y th i /\ o i = O th i) ->
  (forall i, off <= i < off + length (d_ports d) -> actp d off i = true -> rate_of nwl th0 (fun th => Y th i) (dy i)) ->
  forall i, off <= i < off + length (d_ports d) -> actp d off i = true -> rate_of nwl th0 (fun th => O th i) (jac d off (Y th0) dy i).
Proof.
  induction d as [p f J|cs IH] using dcomp_ind'; intros HD HE off Y O dy HA HY i Li E.
  - rewrite plain_act in E by auto. cbn in HD. destruct (HD E) as [LJ HJ]. cbn [jac]. rewrite E. cbn in Li.
    assert (Act : forall j, off <= j < off + length p -> actp (DPlain p f J) off j = true) by (intros; rewrite plain_act; auto).
    intros w c Lw.
    pose proof (HJ (fun th => map (Y th) (seq off (length p))) (fun th => map (O th) (seq off (length p))) (map dy (seq off (length p)))) as H.
    assert (Q : rate_of nwl th0 (fun th => nth (i - off) (map (O th) (seq off (length p))) zfield)
                  (nth (i - off) (J (map (Y th0) (seq off (length p))) (map dy (seq off (length p)))) zfield)).
    { apply H.
      - intros. rewrite map_length, seq_length. reflexivity.
      - rewrite map_length, seq_length. reflexivity.
      - intros k Lk w' c' Lw'. rewrite nth_map_seq by auto.
        pose proof (HY (off + k) ltac:(cbn; lia) (Act (off + k) ltac:(lia)) w' c' Lw') as H'.
        replace (fun th => nth k (map (Y th) (seq off (length p))) zfield w' c') with (fun th => Y th (off + k) w' c'); [exact H'|].
        apply functional_extensionality. intros th. now rewrite nth_map_seq.
      - revert HA. apply around_mono. intros th (y & o & H1 & H2). cbn in H1. rewrite E in H1.
        assert (EY : map (Y th) (seq off (length p)) = map y (seq off (length p))).
        { apply map_ext_in. intros j Ij. apply in_seq in Ij. symmetry. apply H2; auto. }
        cbv beta. rewrite EY. etransitivity; [exact H1|]. apply (f_equal (@Ok (list V))). apply map_ext_in. intros j Ij. apply in_seq in Ij. apply H2; auto.
      - lia. }
    specialize (Q w c Lw). cbv beta in Q.
    replace (fun th => O th i w c) with (fun th => nth (i - off) (map (O th) (seq off (length p))) zfield w c); [exact Q|].
    apply functional_extensionality. intros th. rewrite nth_map_seq by lia. f_equal. lia.
  - rewrite diff_nested in HD. rewrite even_nested in HE. rewrite jac_nested. cbn [at_param] in HA. revert off HA HY Li E.
    induction IH as [|c r Hc _ IH]; intros off HA HY Li E; [cbn in Li; lia|].
    inversion HE as [|c0 r0 E1 E2]; subst. inversion HD as [|c0 r0 D1 D2]; subst.
    assert (HA1 : around th0 (fun th => exists y o : nat -> V, acts zfield (at_param th c) off y o /\
      forall i, off <= i < off + length (d_ports c) -> actp c off i = true -> y i = Y th i /\ o i = O th i)).
    { revert HA. apply around_mono. intros th (y & o & H1 & H2). rewrite acts_nested in H1. exists y, o. split; [apply H1|].
      intros j Lj Ej. apply H2; [cbn; rewrite app_length; lia|]. rewrite actp_cons by lia. destruct (Nat.ltb_spec j (off + length (d_ports c))); [auto|lia]. }
    assert (HA2 : around th0 (fun th => exists y o : nat -> V, acts zfield (Nested (map (at_param th) r)) (off + length (d_ports c)) y o /\
      forall i, off + length (d_ports c) <= i < off + length (d_ports c) + length (d_ports (DNested r)) -> actp (DNested r) (off + length (d_ports c)) i = true -> y i = Y th i /\ o i = O th i)).
    { revert HA. apply around_mono. intros th (y & o & H1 & H2). rewrite acts_nested in H1. exists y, o. cbn in H1. rewrite np_at in H1. split; [rewrite acts_nested; apply H1|].
      intros j Lj Ej. apply H2; [cbn in *; rewrite app_length; lia|]. rewrite actp_cons by lia. destruct (Nat.ltb_spec j (off + length (d_ports c))); [lia|auto]. }
    rewrite actp_cons in E by lia. cbn [jacs]. cbn [d_ports flat_map] in Li. rewrite app_length in Li.
    destruct (Nat.ltb_spec i (off + length (d_ports c))) as [L|L].
    + apply Hc; auto; [|lia]. intros j Lj Ej. apply HY; [cbn; rewrite app_length; lia|]. rewrite actp_cons by lia. destruct (Nat.ltb_spec j (off + length (d_ports c))); [auto|lia].
    + apply IH; auto; [|cbn; lia]. intros j Lj Ej. cbn in Lj. apply HY; [cbn; rewrite app_length; lia|]. rewrite actp_cons by lia. destruct (Nat.ltb_spec j (off + length (d_ports c))); [lia|auto].
Qed.

(** ** The circuit in which active ports emit whatever is injected *)
Definition quiet (b : fam) : fam :=
  {| b_np := b_np b; b_C := b_C b; b_src := b_src b; b_det := b_det b; b_act := b_act b; b_order := b_order b;
     b_S := fun i j => if b_act b i then fun _ _ => 0c else b_S b i j; b_del := b_del b |}.

Lemma quiet_regular e (b : fam) th w : unmixed 0%R e (at_par b th) w -> no_resonance e (at_par b th) w ->
  no_resonance e (at_par (quiet b) th) w.
Proof.
  intros U NR x Hx. apply NR. intros i Li Z. rewrite (Hx i Li Z). cbn [at_par fmap quiet b_np b_C b_S].
  apply lsum_ext. intros j Ij. apply in_seq in Ij. destruct (b_C b i j); [|reflexivity]. apply lsum_ext. intros k Ik. apply in_seq in Ik.
  unfold lag. cbn [at_par fmap quiet b_np b_C b_S b_src b_det b_act b_del].
  destruct (Nat.eqb_spec (if b_src b k || b_det b k || b_act b k then Nat.max 1 (steps e (b_del b k)) else steps e (b_del b k)) 0) as [E|N]; [|reflexivity].
  destruct (b_act b j) eqn:A; [|reflexivity].
  assert (Z0 : b_S (at_par b th) j k w = 0c).
  { apply U; cbn [at_par fmap b_np]; try lia. unfold lag. cbn [at_par fmap b_src b_det b_act b_del]. rewrite E, A, orb_true_r.
    destruct (Nat.max 1 (steps e (b_del b j))) eqn:M; [lia|discriminate]. }
  cbn [at_par fmap b_S] in Z0. rewrite Z0. reflexivity.
Qed.

Lemma before_past (a : nat -> nat -> V) d t j w c : before 0%R a d t j w c = past (fun t i => a t i w c) d t j.
Proof. unfold before, SimSpec.past. destruct (t <? d); reflexivity. Qed.

Lemma deriv_near f g l : near (fun h => f h = g h) -> f 0%R = g 0%R -> deriv f l -> deriv g l.
Proof. intros H E. unfold deriv. apply ctends_ext. revert H. apply near_mono. intros h _ ->. now rewrite E. Qed.
Lemma deriv_unique f l m : deriv f l -> deriv f m -> l = m.
Proof. intros [A B] [A' B']. apply injective_projections; eapply tends_unique; eassumption. Qed.

Section Core.
Variables (e : env) (b : fam) (D : nat -> nat -> nat -> C) (T0 : nat).
Notation n := (b_np b).
Notation lg := (lag e (at_par b 0%R)).
Notation nwl := (e_num_wl e).
Variables (A O Y : R -> nat -> nat -> V) (src : nat -> nat -> V) (jt : nat -> (nat -> V) -> nat -> V).
Notation at_wc x w c := (fun t i : nat => x t i w c).
Notation emit h w c := (fun t i : nat => if b_act b i then O h t i w c else src t i w c).

Hypothesis HD : forall w i j, w < nwl -> i < n -> j < n -> deriv (fun h => b_S b i j h w) (D i j w).
Hypothesis HU : near (fun h => forall w, w < nwl -> unmixed 0%R e (at_par b h) w).
Hypothesis HU0 : forall w, w < nwl -> unmixed 0%R e (at_par b 0%R) w.
Hypothesis NR : forall w, w < nwl -> no_resonance e (at_par b 0%R) w.
Hypothesis HW : near (fun h => forall w c, w < nwl -> waves e (at_par (quiet b) h) w T0 (emit h w c) (at_wc (A h) w c) (at_wc (O h) w c)).
Hypothesis HW0 : forall w c, w < nwl -> waves e (at_par (quiet b) 0%R) w T0 (emit 0%R w c) (at_wc (A 0%R) w c) (at_wc (O 0%R) w c).
Definition scat h t i w c : C := csum (fun j => cmul (b_S b i j h w) (past (at_wc (A h) w c) (lg j) t j)) (seq 0 n).
Hypothesis HY : near (fun h => forall t i w c, t < T0 -> i < n -> b_act b i = true -> w < nwl -> Y h t i w c = scat h t i w c).
Hypothesis HY0 : forall t i w c, t < T0 -> i < n -> b_act b i = true -> w < nwl -> Y 0%R t i w c = scat 0%R t i w c.
Hypothesis HJ : forall t dy, t < T0 ->
  (forall i w c, i < n -> b_act b i = true -> w < nwl -> deriv (fun h => Y h t i w c) (dy i w c)) ->
  forall i w c, i < n -> b_act b i = true -> w < nwl -> deriv (fun h => O h t i w c) (jt t dy i w c).

Lemma active_zero i j h w : unmixed 0%R e (at_par b h) w -> i < n -> j < n -> b_act b i = true -> lg j = 0 -> b_S b i j h w = 0c.
Proof using Type.
  intros U Li Lj Ai E. apply (U i j); auto. change (lag e (at_par b h) j) with (lg j). rewrite E.
  unfold lag. cbn [at_par fmap b_src b_det b_act b_del]. rewrite Ai, orb_true_r.
  destruct (Nat.max 1 (steps e (b_del b i))) eqn:M; [clear - M; lia|discriminate].
Qed.
Lemma active_D i j w : w < nwl -> i < n -> j < n -> b_act b i = true -> lg j = 0 -> D i j w = 0c.
Proof using HD HU HU0.
  intros Lw Li Lj Ai E. apply (deriv_unique (HD Lw Li Lj)). eapply deriv_near; [| |apply (deriv_const 0c)].
  - revert HU. apply near_mono. intros h _ U. symmetry. apply active_zero; auto.
  - symmetry. apply active_zero; auto.
Qed.

(** The tangent fields, time step by time step. *)
Definition link (o : nat -> nat -> V) w c (t i : nat) : C := csum (fun j => if b_C b i j then o t j w c else 0c) (seq 0 n).
Definition tdy (o : nat -> nat -> V) (t : nat) : nat -> V := fun i w c =>
  csum (fun j => if lg j =? 0 then 0c
     else cadd (cmul (b_S b i j 0%R w) (past (link o w c) (lg j) t j)) (cmul (D i j w) (past (at_wc (A 0%R) w c) (lg j) t j))) (seq 0 n).
Definition tsrc (o : nat -> nat -> V) (t : nat) : nat -> V := fun i w c =>
  if b_act b i then jt t (tdy o t) i w c else csum (fun j => cmul (D i j w) (past (at_wc (A 0%R) w c) (lg j) t j)) (seq 0 n).
Fixpoint tan (T : nat) : nat -> nat -> V :=
  match T with
  | 0 => fun _ _ _ _ => 0c
  | S T => let o := tan T in fun t i w c =>
      if t =? T then next e (quiet b) w 0%R (fun t i => tsrc o t i w c) (at_wc o w c) T i else o t i w c
  end.
Definition tn : nat -> nat -> V := fun t => tan (S t) t.

Lemma tan_tn T t i w c : t < T -> tan T t i w c = tn t i w c.
Proof using Type.
  unfold tn. induction T as [|T IH]; intros L; [inversion L|]. cbn [tan] in *. destruct (Nat.eqb_spec t T) as [->|N].
  - rewrite Nat.eqb_refl. reflexivity.
  - rewrite IH by (clear - L N; lia). reflexivity.
Qed.

Lemma tan_solution T w c : at_wc (tan T) w c = solution e (quiet b) w 0%R (fun t i => tsrc (tan t) t i w c) T.
Proof.
  induction T as [|T IH]; [reflexivity|]. cbn [tan solution].
  apply functional_extensionality. intros t. apply functional_extensionality. intros i.
  rewrite IH. destruct (Nat.eqb_spec t T) as [->|N]; [|apply (f_equal (fun f => f t i) IH)]. reflexivity.
Qed.

Lemma tn_waves T w c : w < nwl ->
  waves e (at_par (quiet b) 0%R) w T (fun t i => tsrc (tan t) t i w c) (link tn w c) (at_wc tn w c).
Proof using HU0 NR.
  intros Lw. pose proof (@solution_waves e (quiet b) w 0%R (fun t i => tsrc (tan t) t i w c) T (quiet_regular (HU0 Lw) (NR Lw))) as H.
  rewrite <- tan_solution in H.
  assert (EL : forall t i, t < T -> links (quiet b) (at_wc (tan T) w c) t i = link tn w c t i).
  { intros t i L. apply lsum_ext. intros j _. cbn [quiet b_C]. destruct (b_C b i j); [|reflexivity]. apply tan_tn. exact L. }
  intros t i Lt Li. destruct (H t i Lt Li) as [E1 E2]. split; [reflexivity|].
  rewrite <- (tan_tn i w c Lt), E2. f_equal. apply lsum_ext. intros j Ij. f_equal. unfold SimSpec.past.
  destruct (t <? _); [reflexivity|]. apply EL. clear - Lt. lia.
Qed.

Lemma past_tan t d j w c : d <> 0 -> past (link (tan t) w c) d t j = past (link tn w c) d t j.
Proof using Type.
  intros N. unfold SimSpec.past. destruct (Nat.ltb_spec t d) as [L|L]; [reflexivity|]. unfold link. apply lsum_ext. intros k _.
  destruct (b_C b j k); [|reflexivity]. apply tan_tn. clear - N L. lia.
Qed.

Theorem tan_deriv T : T <= T0 -> forall t i w c, t < T -> i < n -> w < nwl ->
  deriv (fun h => A h t i w c) (link tn w c t i) /\ deriv (fun h => O h t i w c) (tn t i w c).
Proof.
  induction T as [|T IH]; intros LT t i w c Lt Li Lw; [lia|].
  assert (DY : forall t i w c, t < S T -> i < n -> b_act b i = true -> w < nwl -> deriv (fun h => Y h t i w c) (tdy (tan t) t i w c)).
  { clear t i w c Lt Li Lw. intros t i w c Lt Li Ai Lw.
    assert (DS : deriv (fun h => csum (fun j => if lg j =? 0 then 0c else cmul (b_S b i j h w) (past (at_wc (A h) w c) (lg j) t j)) (seq 0 n)) (tdy (tan t) t i w c)).
    { unfold tdy. apply (@deriv_sum _ (fun j h => if lg j =? 0 then 0c else cmul (b_S b i j h w) (past (at_wc (A h) w c) (lg j) t j))).
      intros j Ij. apply in_seq in Ij. destruct (Nat.eqb_spec (lg j) 0) as [E|N]; [apply deriv_const|].
      assert (DP : deriv (fun h => past (at_wc (A h) w c) (lg j) t j) (past (link tn w c) (lg j) t j)).
      { unfold SimSpec.past. destruct (Nat.ltb_spec t (lg j)); [apply deriv_const|]. apply IH; lia. }
      rewrite past_tan by auto. generalize (deriv_mul (HD Lw Li (j := j) ltac:(lia)) DP). apply ctends_to. ring. }
    revert DS. apply deriv_near.
    - generalize (near_and HY HU). apply near_mono. intros h _ [H U]. rewrite H by (auto; lia). apply lsum_ext. intros j Ij. apply in_seq in Ij.
      destruct (Nat.eqb_spec (lg j) 0) as [E|N]; [|reflexivity]. rewrite (active_zero (U w Lw)) by (auto; lia). ring.
    - rewrite HY0 by (auto; lia). apply lsum_ext. intros j Ij. apply in_seq in Ij.
      destruct (Nat.eqb_spec (lg j) 0) as [E|N]; [|reflexivity]. rewrite (active_zero (HU0 Lw)) by (auto; lia). ring. }
  destruct (@waves_deriv_src e (quiet b) w (fun i j => if b_act b i then 0c else D i j w) (S T)
     (fun h => emit h w c) (fun t i => if b_act b i then jt t (tdy (tan t) t) i w c else 0c) (fun h => at_wc (A h) w c) (fun h => at_wc (O h) w c))
     as (da & dout & HL & Hd).
  - intros t' i' Lt' Li'. cbn [quiet b_np] in Li'. destruct (b_act b i') eqn:Ai; [|apply deriv_const].
    apply HJ; auto; lia.
  - intros i' j' Li' Lj'. cbn [quiet b_np b_S] in *. destruct (b_act b i'); [apply deriv_const|apply HD; auto].
  - apply quiet_regular; auto.
  - revert HW. apply near_mono. intros h _ H t' i' Lt' Li'. apply H; auto. lia.
  - intros t' i' Lt' Li'. apply HW0; auto. lia.
  - assert (EQ : forall t i, t < S T -> i < n -> da t i = link tn w c t i /\ dout t i = tn t i w c).
    { intros t' i' Lt' Li'.
      apply (@waves_unique R 0%R 1%R Rplus Rmult Rminus Ropp RTheory (at_par (quiet b) 0%R) e w (S T) (fun t i => tsrc (tan t) t i w c)
               da dout (link tn w c) (at_wc tn w c)); auto.
      - apply quiet_regular; auto.
      - intros t2 i2 L2 Li2. destruct (HL t2 i2 L2 Li2) as [E1 E2]. split; [exact E1|]. rewrite E2. rewrite (lsum_add CRr).
        unfold tsrc. cbn [at_par fmap quiet b_np b_S]. destruct (b_act b i2).
        + rewrite !(@lsum_0 _ 0c 1c cadd cmul csub copp CRr) by (intros; ring). ring.
        + match goal with |- cadd _ (cadd ?x ?z) = cadd ?z' ?y => change y with x; change z' with z end. ring.
      - apply tn_waves. auto. }
    destruct (EQ t i Lt Li) as [<- <-]. apply Hd; auto.
Qed.
End Core.

(** ** The simulator *)
Section Forward.
Variable solve : nat -> nat -> mat R -> mat R -> option (mat R).
Hypotheses (SS : solver_sound 0%R Rplus Rmult solve) (SC : solver_complete 0%R Rplus Rmult solve).
Variables (e : env) (b : fam) (th0 : R) (D : nat -> nat -> nat -> C) (ds : nat -> list dcomp) (source : nat -> field R).
Notation n := (b_np b).
Notation nwl := (e_num_wl e).
Notation T0 := (e_num_t e).
Notation mc := (mc_nodes e (at_par b 0%R)).
Notation anet := (fun th t => Nested (map (at_param th) (ds t))).
Notation act th := (net_act 0%R (length mc) (anet th)).
Notation lg := (lag e (at_par b 0%R)).

(** The simulation at parameter [th], and batch column [c] of the detector at port [p]. *)
Definition run_at (th : R) : res (list (field R)) :=
  forward 0%R 1%R Rplus Rmult Rminus Ropp solve (act th) e (at_par b th) None source.
Definition seen (w c t p : nat) (th : R) : C :=
  match run_at th with
  | Ok outs => at_ (nth t outs (zero_field 0%R)) w (rank (b_det b) p) c
  | Err _ => 0c
  end.

Hypothesis HT : timed e.
Hypothesis Sep : separate b.
Hypothesis TM : terminated b = true.
Hypothesis ND : num_det b <> 0.
Hypothesis SP : forall t, d_ports (DNested (ds t)) = map (fun i => (b_src b i, b_act b i)) (seq 0 n).
Hypothesis AL : forall th t, aligned (anet th t).
Hypothesis DF : forall t, differentiable nwl th0 (DNested (ds t)).
Hypothesis HD : forall w i j, w < nwl -> i < n -> j < n -> dlim (fun th => b_S b i j th w) th0 (D i j w).
Hypothesis HU : around th0 (fun th => forall w, w < nwl -> unmixed 0%R e (at_par b th) w).
Hypothesis NR : forall w, w < nwl -> no_resonance e (at_par b th0) w.

Definition no_init : init R :=
  {| i_mc := []; i_S := fun _ _ _ => 0c; i_C := fun _ => (fun _ _ => 0%R, fun _ _ => 0%R); i_mask := fun _ _ => 0%R; i_depth := 0; i_delay := fun _ => 0%Q |}.
Definition minit (th : R) : init R :=
  match initialize 0%R 1%R Rplus Rmult Rminus Ropp solve e (at_par b th) with Ok (Some m) => m | _ => no_init end.
Definition Sc (th : R) (t i : nat) : V :=
  node_field (scattered 0%R Rplus Rmult Rminus (at_par b th) (act th) e (minit th) source None t) (index i mc).
Definition Em (th : R) (t i : nat) : V :=
  node_field (emitted 0%R Rplus Rmult Rminus (at_par b th) (act th) e (minit th) source None t) (index i mc).

Lemma actp_b t i : i < n -> actp (DNested (ds t)) 0 i = b_act b i.
Proof.
  intros L. unfold actp. rewrite SP, Nat.sub_0_r.
  rewrite nth_indep with (d' := (b_src b 0, b_act b 0)) by (rewrite map_length, seq_length; auto).
  rewrite (map_nth (fun i => (b_src b i, b_act b i))), seq_nth by auto. reflexivity.
Qed.
Lemma ports_n t : length (d_ports (DNested (ds t))) = n.
Proof. rewrite SP, map_length, seq_length. reflexivity. Qed.
Lemma same_at th t : same_ports (at_par b th) (anet th t).
Proof. exact (eq_trans (ports_at th (DNested (ds t))) (SP t)). Qed.
Lemma even_ds t : even (DNested (ds t)).
Proof. apply (@aligned_even th0). apply AL. Qed.

Lemma traces th outs : (forall w, w < nwl -> unmixed 0%R e (at_par b th) w) -> run_at th = Ok outs ->
  exists y a o, waves_active 0%R Rplus Rmult Rminus e (at_par b th) (anet th) T0 (fun t i w c => injected 0%R (at_par b th) source w c t i) y a o /\
  (forall w c, w < nwl -> reads 0%R (at_par b th) outs w c T0 (fun t i => a t i w c)) /\
  forall t i, i < n -> b_act b i = true -> y t i = Sc th t i /\ o t i = Em th t i.
Proof.
  intros U HF. destruct (forward_inv HF) as (m & EI & _ & _ & EO).
  destruct (@run_active_nodes R 0%R 1%R Rplus Rmult Rminus Ropp RTheory solve SS e (at_par b th) (fun t => map (at_param th) (ds t))
    (same_at th) (AL th) Sep m source EI U) as (y & a & o & HW & HO & HYn & HOn).
  change (mc_nodes e (at_par b th)) with mc in HYn, HOn.
  assert (EM : minit th = m) by (unfold minit; rewrite EI; reflexivity).
  exists y, a, o. split; [apply HW|]. split.
  - intros w c Lw. split; [rewrite EO, map_length, seq_length; reflexivity|].
    intros t p Lt Lp Dp. destruct (det_read EI Sep EO w c Lt Lp Dp) as (k & Lk & <- & ->). auto.
  - intros t i Li Ai.
    assert (I : In i mc).
    { apply in_mc; [exact Sep|]. split; [exact Li|]. unfold lag. cbn [at_par fmap b_src b_det b_act b_del]. rewrite Ai, orb_true_r. lia. }
    destruct (nth_index I) as [Lk Ek]. unfold Sc, Em. rewrite EM. split.
    + pose proof (HYn t (index i mc) Lk) as H. rewrite Ek in H. exact H.
    + apply functional_extensionality. intros w. apply functional_extensionality. intros c.
      pose proof (HOn t (index i mc) w c Lk) as H. rewrite Ek in H. exact H.
Qed.

(** The fields at all ports, computed. *)
Notation at_wc x w c := (fun t i : nat => x t i w c).
Definition inj : nat -> nat -> V := fun t i w c => injected 0%R (at_par b th0) source w c t i.
Definition OO (th : R) : nat -> nat -> V := fun t i w c =>
  solution e (quiet b) w th (fun t i => if b_act b i then Em th t i w c else inj t i w c) T0 t i.
Definition AA (th : R) : nat -> nat -> V := fun t i w c => link b (OO th) w c t i.

Definition good (th : R) : Prop :=
  (forall w, w < nwl -> unmixed 0%R e (at_par b th) w /\ no_resonance e (at_par b th) w) /\ exists outs, run_at th = Ok outs.

Lemma good_around : around th0 good.
Proof.
  assert (HS : around th0 (fun th => (forall w, w < nwl -> no_resonance e (at_par b th) w) /\
     exists outs, forward 0%R 1%R Rplus Rmult Rminus Ropp solve (act th0) e (at_par b th) None source = Ok outs)).
  { apply succeeds_around; auto. intros w i j Lw Li Lj. pose proof (HD Lw Li Lj) as H. apply dlim_deriv in H. apply deriv_cont in H.
    cbv beta in H. rewrite Rplus_0_r in H. exact H. }
  generalize (around_and HS HU). apply around_mono. intros th [[H1 _] H2]. split; [auto|].
  destruct (@forward_succeeds R 0%R 1%R Rplus Rmult Rminus Ropp RTheory solve _ (act th) e (at_par b th) None source) as (outs & HF & _); auto.
  exists outs. exact HF.
Qed.

Lemma facts th : good th -> 
  (forall w c, w < nwl -> waves e (at_par (quiet b) th) w T0 (fun t i => if b_act b i then OO th t i w c else inj t i w c) (at_wc (AA th) w c) (at_wc (OO th) w c)) /\
  exists y a o, waves_active 0%R Rplus Rmult Rminus e (at_par b th) (anet th) T0 (fun t i w c => injected 0%R (at_par b th) source w c t i) y a o /\
  (forall t i, i < n -> b_act b i = true -> y t i = Sc th t i /\ o t i = Em th t i) /\
  (forall t i w c, t < T0 -> i < n -> w < nwl -> a t i w c = AA th t i w c /\ o t i w c = OO th t i w c) /\
  (forall t p w c, t < T0 -> p < n -> w < nwl -> b_det b p = true -> seen w c t p th = AA th t p w c).
Proof.
  intros [G (outs & HF)]. destruct (traces (fun w Lw => proj1 (G w Lw)) HF) as (y & a & o & HW & HR & HN).
  assert (SW : forall w c, w < nwl -> waves e (at_par (quiet b) th) w T0 (fun t i => if b_act b i then Em th t i w c else inj t i w c) (at_wc (AA th) w c) (at_wc (OO th) w c)).
  { intros w c Lw. apply (@solution_waves e (quiet b) w th). apply quiet_regular; apply G; auto. }
  assert (TW : forall w c, w < nwl -> waves e (at_par (quiet b) th) w T0 (fun t i => if b_act b i then Em th t i w c else inj t i w c) (at_wc a w c) (at_wc o w c)).
  { intros w c Lw t i Lt Li. cbn [at_par fmap quiet b_np b_C b_S] in *. destruct (HW t Lt) as [HA HE]. destruct (HE i Li w c Lw) as [E1 E2].
    split; [exact E1|]. destruct (b_act b i) eqn:Ai.
    - destruct (HN t i Li Ai) as [_ ->]. rewrite (lsum_0 CRr) by (intros; ring). ring.
    - assert (EO : o t i = y t i).
      { apply (@acts_inactive th (DNested (ds t)) (AL th t) 0); [exact HA|rewrite ports_n; lia|]. rewrite actp_b; auto. }
      rewrite EO, E2. unfold inj. f_equal. apply lsum_ext. intros j Ij. rewrite before_past. reflexivity. }
  assert (EQ : forall t i w c, t < T0 -> i < n -> w < nwl -> a t i w c = AA th t i w c /\ o t i w c = OO th t i w c).
  { intros t i w c Lt Li Lw.
    apply (@waves_unique R 0%R 1%R Rplus Rmult Rminus Ropp RTheory (at_par (quiet b) th) e w T0 _ _ _ _ _ (quiet_regular (proj1 (G w Lw)) (proj2 (G w Lw))) (TW w c Lw) (SW w c Lw)); auto. }
  split.
  - intros w c Lw t i Lt Li. destruct (SW w c Lw t i Lt Li) as [E1 E2]. split; [exact E1|]. cbn [at_par fmap quiet b_np] in Li.
    destruct (b_act b i) eqn:Ai; [|exact E2].
    rewrite E2 at 1. destruct (EQ t i w c Lt Li Lw) as [_ <-]. destruct (HN t i Li Ai) as [_ <-]. reflexivity.
  - exists y, a, o. split; [exact HW|]. split; [exact HN|]. split; [exact EQ|].
    intros t p w c Lt Lp Lw Dp. unfold seen. rewrite HF. destruct (HR w c Lw) as [_ Rd].
    etransitivity; [apply (Rd t p Lt Lp Dp)|]. apply EQ; auto.
Qed.

Lemma quiet_shift h : at_par (quiet (shift b th0)) h = at_par (quiet b) (th0 + h)%R.
Proof.
  unfold at_par, quiet, shift, fmap. cbn [b_np b_C b_src b_det b_act b_order b_S b_del]. f_equal.
  apply functional_extensionality. intros i. apply functional_extensionality. intros j. destruct (b_act b i); reflexivity.
Qed.

Notation jt := (fun t dy => jac (DNested (ds t)) 0 (Sc th0 t) dy).
Notation A' := (fun h => AA (th0 + h)%R).
Notation TN := (tn e (shift b th0) D A' jt).
Notation TY := (fun t => tdy e (shift b th0) D A' (tan e (shift b th0) D A' jt t) t).

Theorem run_deriv : around th0 (fun th => exists outs, run_at th = Ok outs) /\
  exists y a o dy da dout,
    waves_active 0%R Rplus Rmult Rminus e (at_par b th0) (anet th0) T0 inj y a o /\
    tangent_waves e (at_par b th0) (fun t => DNested (ds t)) D T0 y a dy da dout /\
    forall w c t p, w < nwl -> t < T0 -> p < n -> b_det b p = true ->
      seen w c t p th0 = a t p w c /\ dlim (seen w c t p) th0 (da t p w c).
Proof.
  pose proof good_around as GA. destruct (around_near GA) as [GN G0].
  split; [revert GA; apply around_mono; intros th [_ H]; exact H|].
  destruct (facts G0) as (_ & y & a & o & HW & HN & EQ & HR).
  assert (G0' : good (th0 + 0)%R) by (rewrite Rplus_0_r; exact G0).
  destruct (facts G0') as (F0 & _).
  assert (HD' : forall w i j, w < nwl -> i < n -> j < n -> deriv (fun h => b_S (shift b th0) i j h w) (D i j w)).
  { intros w i j Lw Li Lj. apply (dlim_deriv (fun th => b_S b i j th w)). auto. }
  assert (YA : forall th, good th -> forall t i w c, t < T0 -> i < n -> b_act b i = true -> w < nwl ->
     Sc th t i w c = csum (fun j => cmul (b_S b i j th w) (past (at_wc (AA th) w c) (lg j) t j)) (seq 0 n)).
  { intros th G t i w c Lt Li Ai Lw. destruct (facts G) as (_ & y1 & a1 & o1 & W1 & N1 & E1 & _).
    destruct (N1 t i Li Ai) as [<- _]. destruct (W1 t Lt) as [_ H1]. destruct (H1 i Li w c Lw) as [_ ->].
    replace (injected 0%R (at_par b th) source w c t i) with 0c.
    2:{ unfold injected. cbn [at_par fmap b_src]. destruct (b_src b i) eqn:Si; [|reflexivity]. destruct (Sep Li) as (_ & H & _). rewrite H in Ai by auto. discriminate. }
    transitivity (csum (fun j => cmul (b_S b i j th w) (before 0%R a1 (lg j) t j w c)) (seq 0 n)); [ring_simplify; reflexivity|].
    apply lsum_ext. intros j Ij. apply in_seq in Ij. f_equal. rewrite before_past. unfold SimSpec.past.
    destruct (Nat.ltb_spec t (lg j)); [reflexivity|]. apply E1; auto; lia. }
  assert (TD : forall t i w c, t < T0 -> i < n -> w < nwl ->
    deriv (fun h => AA (th0 + h)%R t i w c) (link b TN w c t i) /\ deriv (fun h => OO (th0 + h)%R t i w c) (TN t i w c)).
  { apply (@tan_deriv e (shift b th0) D T0 A' (fun h => OO (th0 + h)%R) (fun h => Sc (th0 + h)%R) inj jt) with (T := T0); auto.
    - revert GN. apply near_mono. intros h _ [G _] w Lw. apply G; auto.
    - intros w Lw. apply (proj1 G0'); auto.
    - intros w Lw. apply (proj1 G0'); auto.
    - revert GN. apply near_mono. intros h _ G w c Lw. rewrite quiet_shift. apply (facts G); auto.
    - intros w c Lw. rewrite quiet_shift. apply F0; auto.
    - revert GN. apply near_mono. intros h _ G t i w c Lt Li Ai Lw. apply YA; auto.
    - intros t i w c Lt Li Ai Lw. apply YA; auto.
    - intros t dy Lt HdY i w c Li Ai Lw.
      assert (RT : rate_of nwl th0 (fun th => Em th t i) (jac (DNested (ds t)) 0 (Sc th0 t) dy i)).
      { apply (@jac_rate nwl th0 (DNested (ds t)) (DF t) (even_ds t) 0 (fun th => Sc th t) (fun th => Em th t) dy).
        - revert GA. apply around_mono. intros th G. destruct (facts G) as (_ & y1 & a1 & o1 & W1 & N1 & _).
          exists (y1 t), (o1 t). split; [apply (W1 t Lt)|]. intros k Lk Ak. rewrite ports_n in Lk. rewrite actp_b in Ak by lia. apply N1; auto. lia.
        - intros k Lk Ak w' c' Lw'. rewrite ports_n in Lk. rewrite actp_b in Ak by lia. apply dlim_deriv. apply HdY; auto. cbn. lia.
        - rewrite ports_n. cbn in Li. lia.
        - rewrite actp_b; auto. }
      specialize (RT w c Lw). apply dlim_deriv in RT. cbv beta in RT. revert RT.
      assert (EO : forall th, good th -> Em th t i w c = OO th t i w c).
      { intros th G. destruct (facts G) as (_ & y1 & a1 & o1 & W1 & N1 & E1 & _). destruct (N1 t i Li Ai) as [_ <-]. apply E1; auto. }
      apply deriv_near; [|apply EO; auto]. revert GN. apply near_mono. intros h _ G. apply EO; auto. }
  assert (EA : forall t i w c, t < T0 -> i < n -> w < nwl -> a t i w c = A' 0%R t i w c).
  { intros t i w c Lt Li Lw. cbv beta. rewrite Rplus_0_r. apply EQ; auto. }
  set (dy := fun t i => if b_act b i then TY t i else TN t i).
  set (dout := fun t i => if b_act b i then jac (DNested (ds t)) 0 (Sc th0 t) (TY t) i else TN t i).
  set (da := fun t i w c => link b TN w c t i).
  assert (TW : forall t i w c, t < T0 -> i < n -> w < nwl -> TN t i w c =
      cadd (tsrc e (shift b th0) D A' jt (tan e (shift b th0) D A' jt t) t i w c)
           (csum (fun j => cmul (b_S (at_par (quiet (shift b th0)) 0%R) i j w) (past (link b TN w c) (lg j) t j)) (seq 0 n))).
  { intros t i w c Lt Li Lw.
    destruct (@tn_waves e (shift b th0) D A' jt) with (T := T0) (w := w) (c := c) (t := t) (i := i) as [_ H]; auto.
    - intros w' Lw'. apply (proj1 G0'); auto.
    - intros w' Lw'. apply (proj1 G0'); auto. }
  assert (ED : forall t i w c, t < T0 -> i < n -> w < nwl -> dout t i w c = TN t i w c).
  { intros t i w c Lt Li Lw. unfold dout. destruct (b_act b i) eqn:Ai; [|reflexivity].
    rewrite TW by auto. unfold tsrc. cbn [at_par fmap quiet shift b_act b_S]. rewrite Ai.
    rewrite (lsum_0 CRr) by (intros; ring). ring. }
  assert (PE : forall t i w c j, t < T0 -> i < n -> j < n -> w < nwl -> before 0%R a (lg j) t j w c = past (at_wc (A' 0%R) w c) (lg j) t j).
  { intros t i w c j Lt Li Lj Lw. rewrite before_past. unfold SimSpec.past. destruct (Nat.ltb_spec t (lg j)); [reflexivity|]. apply EA; auto; lia. }
  exists y, a, o, dy, da, dout. split; [exact HW|]. split.
  - intros t Lt. split.
    + apply (jac_dacts (DF t)). intros i Li. rewrite ports_n in Li. unfold dout.
      destruct (b_act b i) eqn:Ai.
      * apply jac_ext; [apply even_ds| |rewrite ports_n; lia|rewrite actp_b; auto; lia].
        intros k Lk Ak. rewrite ports_n in Lk. rewrite actp_b in Ak by lia. split; [symmetry; apply HN; auto; lia|]. unfold dy. rewrite Ak. reflexivity.
      * rewrite jac_inactive; [|apply even_ds|rewrite ports_n; lia|rewrite actp_b; auto; lia]. unfold dy. rewrite Ai. reflexivity.
    + intros i Li w c Lw. cbn [at_par fmap b_np b_C b_S] in *. split.
      * unfold da, link. cbn [shift fmap b_np b_C]. apply lsum_ext. intros j Ij. apply in_seq in Ij. destruct (b_C b i j); [|reflexivity]. rewrite ED by (auto; lia). reflexivity.
      * change (lag e {| b_np := _ |}) with (lag e (at_par b 0%R)).
        transitivity (csum (fun j => cadd (cmul (b_S b i j th0 w) (past (link b TN w c) (lg j) t j)) (cmul (D i j w) (past (at_wc (A' 0%R) w c) (lg j) t j))) (seq 0 n)).
        2:{ apply lsum_ext. intros j Ij. apply in_seq in Ij. rewrite <- (PE t i w c j) by (auto; lia). f_equal. f_equal. symmetry. apply (before_past da). }
        unfold dy. destruct (b_act b i) eqn:Ai.
        -- unfold tdy. apply lsum_ext. intros j Ij. apply in_seq in Ij. destruct (Nat.eqb_spec (lag e (at_par (shift b th0) 0%R) j) 0) as [E|N].
           ++ assert (Z1 : b_S b i j th0 w = 0c).
              { pose proof (@active_zero e (shift b th0) i j 0%R w) as H. cbn [shift fmap b_S] in H. rewrite Rplus_0_r in H. apply H; auto; [|cbn; lia].
                apply (proj1 G0'); auto. }
              assert (Z2 : D i j w = 0c).
              { apply (@active_D e (shift b th0) D); auto; try (cbn; lia).
                - revert GN. apply near_mono. intros h _ [G _] w' Lw'. apply G; auto.
                - intros w' Lw'. apply (proj1 G0'); auto. }
              rewrite Z1, Z2. ring.
           ++ rewrite past_tan by auto. cbn [shift fmap b_S]. rewrite Rplus_0_r. reflexivity.
        -- rewrite TW by auto. unfold tsrc. cbn [at_par fmap quiet shift b_act b_S b_np]. rewrite Ai.
           rewrite (lsum_add CRr). rewrite Rplus_0_r. apply (Radd_comm CRr).
  - intros w c t p Lw Lt Lp Dp. split; [rewrite HR by auto; symmetry; apply EQ; auto|].
    apply dlim_deriv. destruct (TD t p w c Lt Lp Lw) as [H _]. revert H. apply deriv_near.
    + revert GN. apply near_mono. intros h _ G. destruct (facts G) as (_ & _ & _ & _ & _ & _ & _ & H). symmetry. auto.
    + destruct (facts G0') as (_ & _ & _ & _ & _ & _ & _ & H). symmetry. auto.
Qed.
End Forward.
