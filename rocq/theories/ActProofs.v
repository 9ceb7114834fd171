(** Proofs about [Network.action]. *)
From Coq Require Import QArith Lia Permutation.
From Verif Require Import Base NetModel SimModel SimAlg SimSpec SimNodes SimProofs ActModel ActSpec.
Set Implicit Arguments.
Unset Strict Implicit.
Local Open Scope nat_scope.

Section Lists.
Variable A : Type.
Lemma slice_mid (p x q : list A) : slice (length p) (length x) (p ++ x ++ q) = x.
Proof. unfold slice. rewrite skipn_app, Nat.sub_diag, skipn_all. cbn. rewrite firstn_app, Nat.sub_diag, firstn_all. cbn. apply app_nil_r. Qed.
Lemma slice_over (p x q : list A) n : length x <= n -> slice (length p) n (p ++ x ++ q) = x ++ firstn (n - length x) q.
Proof. intros L. unfold slice. rewrite skipn_app, Nat.sub_diag, skipn_all. cbn. rewrite firstn_app, firstn_all2; auto. Qed.
Lemma set_mid (p x y q : list A) : length y = length x -> set_slice (length p) y (p ++ x ++ q) = p ++ y ++ q.
Proof.
  intros E. unfold set_slice. rewrite firstn_app, Nat.sub_diag, firstn_all. cbn. rewrite app_nil_r, E. f_equal. f_equal.
  rewrite app_assoc, skipn_app, skipn_all2 by (rewrite app_length; lia). rewrite app_length.
  replace (length p + length x - (length p + length x)) with 0 by lia. reflexivity.
Qed.
Lemma set_over (p x y q : list A) n : length y = length x ->
  set_slice (length p) (y ++ firstn n q) (p ++ x ++ q) = p ++ y ++ q.
Proof.
  intros E. pose proof (firstn_skipn n q) as Q. set (q1 := firstn n q) in *. set (q2 := skipn n q) in *. clearbody q1 q2. subst q.
  rewrite (app_assoc x), set_mid by (rewrite !app_length; lia). rewrite <- app_assoc. reflexivity.
Qed.
End Lists.

Section Act.
Variables (V : Type) (v0 : V).
Notation acomp := (acomp V).

Section Ind.
Variable P : acomp -> Prop.
Hypothesis HP : forall p f, P (Plain p f).
Hypothesis HN : forall cs, Forall P cs -> P (Nested cs).
Fixpoint acomp_ind' (c : acomp) : P c :=
  match c with
  | Plain p f => HP p f
  | Nested cs => HN ((fix go (cs : list acomp) : Forall P cs :=
      match cs with [] => Forall_nil P | c :: r => Forall_cons c (acomp_ind' c) (go r) end) cs)
  end.
End Ind.

(** The loops of the nested fixpoints, by name. *)
Fixpoint aloop (x_in : list V) (cs : list acomp) (idx : nat) (out : list V) : res (list V) :=
  match cs with
  | [] => Ok out
  | c :: r => if a_any c then
      do y <- action v0 c (slice idx (a_np c) x_in) (map (fun _ => v0) (slice idx (a_np c) out));
      aloop x_in r (idx + a_np c) (set_slice idx y out)
    else aloop x_in r idx out
  end.
Lemma action_nested cs x_in x_out : action v0 (Nested cs) x_in x_out = aloop x_in cs (a_nsrc (Nested cs)) x_in.
Proof.
  cbn [action]. generalize (a_nsrc (Nested cs)). generalize x_in at 2 4.
  induction cs as [|c r IH]; intros out idx; cbn; [reflexivity|].
  destruct (a_any c); [|apply IH]. destruct (action _ _ _ _); cbn; [apply IH|reflexivity].
Qed.
Fixpoint aligned_list (cs : list acomp) : Prop :=
  match cs with
  | [] => True
  | c :: r => aligned c /\
      (a_any c = true -> no_sources c /\ (existsb (@a_any V) r = true -> all_active c)) /\ aligned_list r
  end.
Lemma aligned_nested cs : aligned (Nested cs) = aligned_list cs.
Proof. induction cs as [|c r IH]; cbn; [reflexivity|]. rewrite <- IH. reflexivity. Qed.
Fixpoint acts_list (cs : list acomp) (off : nat) (y o : nat -> V) : Prop :=
  match cs with [] => True | c :: r => acts v0 c off y o /\ acts_list r (off + a_np c) y o end.
Lemma acts_nested cs off y o : acts v0 (Nested cs) off y o = acts_list cs off y o.
Proof. revert off. induction cs as [|c r IH]; intros off; cbn; [reflexivity|]. rewrite <- IH. reflexivity. Qed.

(** Number of active ports. *)
Definition n_act (c : acomp) : nat := length (filter snd (a_ports c)).
Lemma n_act_le (c : acomp) : n_act c <= a_np c.
Proof. unfold n_act, a_np. induction (a_ports c) as [|[s a] r IH]; cbn; [lia|]. destruct a; cbn; lia. Qed.
Lemma n_act_all (c : acomp) : all_active c -> n_act c = a_np c.
Proof.
  unfold all_active, n_act, a_np. induction (a_ports c) as [|[s a] r IH]; intros F; cbn; [lia|].
  inversion F; subst. cbn in *. subst. cbn. rewrite IH; auto.
Qed.
Lemma n_act_0 (c : acomp) : a_any c = false -> n_act c = 0.
Proof.
  unfold a_any, n_act. induction (a_ports c) as [|[s a] r IH]; cbn; auto. destruct a; cbn; [discriminate|auto].
Qed.
Lemma nosrc_0 (c : acomp) : no_sources c -> a_nsrc c = 0.
Proof.
  unfold no_sources, a_nsrc. induction (a_ports c) as [|[s a] r IH]; intros F; cbn; auto.
  inversion F; subst. cbn in *. subst. cbn. auto.
Qed.

(** The values at the active ports after the actions. *)
Fixpoint expect (c : acomp) (xs : list V) : list V :=
  match c with
  | Plain p f => match f xs (repeat v0 (length p)) with Ok l => l | Err _ => [] end
  | Nested cs =>
      (fix go cs xs := match cs with
       | [] => []
       | c :: r => if a_any c then expect c (firstn (n_act c) xs) ++ go r (skipn (n_act c) xs) else go r xs
       end) cs xs
  end.
Fixpoint expects (cs : list acomp) (xs : list V) : list V :=
  match cs with
  | [] => []
  | c :: r => if a_any c then expect c (firstn (n_act c) xs) ++ expects r (skipn (n_act c) xs) else expects r xs
  end.
Lemma expect_nested cs xs : expect (Nested cs) xs = expects cs xs.
Proof. revert xs. induction cs as [|c r IH]; intros xs; cbn; [reflexivity|]. destruct (a_any c); rewrite <- IH; reflexivity. Qed.

Definition n_acts (cs : list acomp) : nat := length (filter snd (flat_map (@a_ports V) cs)).
Lemma n_acts_cons c r : n_acts (c :: r) = n_act c + n_acts r.
Proof. unfold n_acts, n_act. cbn. rewrite filter_app, app_length. reflexivity. Qed.
Lemma n_acts_0 cs : existsb (@a_any V) cs = false -> n_acts cs = 0.
Proof.
  induction cs as [|c r IH]; intros E; [reflexivity|]. cbn in E. apply orb_false_iff in E as [E1 E2].
  rewrite n_acts_cons, n_act_0, IH; auto.
Qed.
Lemma aloop_none x_in cs : existsb (@a_any V) cs = false -> forall idx out, aloop x_in cs idx out = Ok out.
Proof.
  induction cs as [|c r IH]; intros E idx out; [reflexivity|]. cbn in E |- *.
  apply orb_false_iff in E as [-> E2]. auto.
Qed.
Lemma expects_none cs : existsb (@a_any V) cs = false -> forall xs, expects cs xs = [].
Proof.
  induction cs as [|c r IH]; intros E xs; [reflexivity|]. cbn in E |- *.
  apply orb_false_iff in E as [-> E2]. auto.
Qed.

(** A component on its active values, followed by other nodes if it is a network. *)
Definition good (c : acomp) : Prop := aligned c -> a_any c = true -> no_sources c ->
  forall xs post, length xs = n_act c -> length post <= a_np c - n_act c ->
  length (expect c xs) = n_act c /\
  forall out, out = repeat v0 (length (xs ++ post)) -> action v0 c (xs ++ post) out = Ok (expect c xs ++ post).

Lemma repeat_map A (l : list A) : map (fun _ => v0) l = repeat v0 (length l).
Proof. induction l; cbn; congruence. Qed.

Lemma loop_good cs : Forall good cs -> aligned_list cs ->
  forall pre pre' xs post, length pre' = length pre -> length xs = n_acts cs ->
  length (expects cs xs) = n_acts cs /\
  aloop (pre ++ xs ++ post) cs (length pre) (pre' ++ xs ++ post) = Ok (pre' ++ expects cs xs ++ post).
Proof.
  induction cs as [|c r IH]; intros F Al pre pre' xs post Lp Lx.
  - destruct xs; [|discriminate]. split; reflexivity.
  - inversion F; subst. destruct Al as (Ac & Ha & Ar). rewrite n_acts_cons in *.
    cbn [expects aloop]. destruct (a_any c) eqn:Any.
    2:{ rewrite n_act_0 in * by auto. apply IH; auto. }
    destruct (Ha eq_refl) as [Ns Full].
    rewrite <- (firstn_skipn (n_act c) xs) in *.
    assert (L1 : length (firstn (n_act c) xs) = n_act c).
    { rewrite firstn_length. rewrite firstn_skipn in Lx. lia. }
    set (x1 := firstn (n_act c) xs) in *. set (x2 := skipn (n_act c) xs) in *. clearbody x1 x2. clear xs.
    rewrite app_length in Lx. assert (L2 : length x2 = n_acts r) by lia.
    rewrite firstn_app, skipn_app, L1, Nat.sub_diag, <- L1, firstn_all, skipn_all, app_nil_r. cbn [firstn skipn app].
    rewrite L1. pose proof (n_act_le c) as LE.
    destruct (existsb (@a_any V) r) eqn:Later.
    + specialize (Full eq_refl). apply n_act_all in Full.
      destruct (H1 Ac Any Ns x1 [] L1) as [Le Hx]; [cbn; lia|]. rewrite !app_nil_r in Hx.
      destruct (IH H2 Ar (pre ++ x1) (pre' ++ expect c x1) x2 post) as [Lr Hr]; auto.
      { rewrite !app_length. lia. }
      split; [rewrite app_length; lia|].
      rewrite <- !app_assoc. rewrite <- Full, <- L1, slice_mid, <- Lp, slice_mid, repeat_map, Hx by reflexivity. cbn [bind].
      rewrite set_mid by lia. rewrite <- !app_assoc in Hr. rewrite <- Hr. f_equal. rewrite app_length. lia.
    + rewrite (n_acts_0 Later) in *. destruct x2; [|discriminate]. rewrite app_nil_r, expects_none, app_nil_r by auto.
      destruct (H1 Ac Any Ns x1 (firstn (a_np c - n_act c) post) L1) as [Le Hx]; [rewrite firstn_length; lia|].
      split; [lia|].
      rewrite slice_over, L1, <- Lp, slice_over, L1, repeat_map, Hx by (auto; lia). cbn [bind].
      rewrite set_over by lia. apply aloop_none. auto.
Qed.

Lemma all_good c : good c.
Proof.
  induction c as [p f|cs IH] using acomp_ind'.
  - intros Al Any Ns xs post Lx Lp. cbn [aligned] in Al. destruct (Al Any) as [All T].
    assert (E : n_act (Plain p f) = a_np (Plain p f)) by (apply n_act_all; exact All).
    rewrite E in *. destruct post; [|cbn in Lp; lia]. 
    cbn [expect action]. destruct (T xs (repeat v0 (length p)) Lx) as (l & El & Ll).
    rewrite El. split; [exact Ll|]. intros out ->. rewrite !app_nil_r, Lx. exact El.
  - intros Al Any Ns xs post Lx Lp. rewrite aligned_nested in Al. rewrite expect_nested.
    destruct (@loop_good cs IH Al [] [] xs post eq_refl Lx) as [L H].
    split; [exact L|]. intros out _. rewrite action_nested, (nosrc_0 Ns). exact H.
Qed.

(** The whole network: sources first, then the active values, then all other nodes. *)
Lemma action_net cs srcs xs post out : aligned (Nested cs) ->
  length srcs = a_nsrc (Nested cs) -> length xs = n_act (Nested cs) ->
  length (expect (Nested cs) xs) = n_act (Nested cs) /\
  action v0 (Nested cs) (srcs ++ xs ++ post) out = Ok (srcs ++ expect (Nested cs) xs ++ post).
Proof.
  intros Al Ls Lx. rewrite action_nested, <- Ls, expect_nested. rewrite aligned_nested in Al.
  apply loop_good; auto. apply Forall_forall. intros. apply all_good.
Qed.

(** The active ports of a component that starts at port [off]. *)
Definition act_ports (c : acomp) (off : nat) : list nat :=
  filter (fun i => snd (nth (i - off) (a_ports c) (false, false))) (seq off (a_np c)).

Lemma filter_nth (l : list (bool * bool)) off :
  length (filter (fun i => snd (nth (i - off) l (false, false))) (seq off (length l))) = length (filter snd l).
Proof.
  revert off. induction l as [|[s a] r IH]; intros off; [reflexivity|]. cbn [length seq filter].
  rewrite Nat.sub_diag. cbn [nth snd].
  rewrite (@filter_ext_in _ _ (fun i => snd (nth (i - S off) r (false, false)))).
  - specialize (IH (S off)). destruct a; cbn; rewrite IH; reflexivity.
  - intros i Ii. apply in_seq in Ii. replace (i - off) with (S (i - S off)) by lia. reflexivity.
Qed.
Lemma act_ports_length c off : length (act_ports c off) = n_act c.
Proof. apply filter_nth. Qed.
Lemma filter_id A (f : A -> bool) l : (forall x, In x l -> f x = true) -> filter f l = l.
Proof.
  induction l as [|x l IH]; intros H; [reflexivity|]. cbn. rewrite (H x) by (left; reflexivity).
  rewrite IH; auto. intros z I. apply H. right. exact I.
Qed.
Lemma act_ports_all c off : all_active c -> act_ports c off = seq off (a_np c).
Proof.
  intros F. unfold act_ports. apply filter_id. intros i Ii. apply in_seq in Ii.
  unfold all_active in F. rewrite Forall_forall in F. apply F. apply nth_In. unfold a_np in Ii. lia.
Qed.
Lemma act_ports_none c off : a_any c = false -> act_ports c off = [].
Proof.
  intros E. pose proof (act_ports_length c off) as L. rewrite n_act_0 in L; auto. destruct (act_ports c off); [auto|discriminate].
Qed.

Fixpoint acts_ports (cs : list acomp) (off : nat) : list nat :=
  match cs with [] => [] | c :: r => act_ports c off ++ acts_ports r (off + a_np c) end.
Lemma act_ports_nested cs off : act_ports (Nested cs) off = acts_ports cs off.
Proof.
  unfold act_ports, a_np. cbn [a_ports]. revert off. induction cs as [|c r IH]; intros off; [reflexivity|].
  cbn [flat_map acts_ports]. rewrite app_length, seq_app, filter_app. f_equal.
  - apply filter_ext_in. intros i Ii. apply in_seq in Ii. rewrite app_nth1 by (unfold a_np in Ii; lia). reflexivity.
  - unfold a_np. rewrite <- IH. apply filter_ext_in. intros i Ii. apply in_seq in Ii.
    rewrite app_nth2 by lia. f_equal. f_equal. lia.
Qed.
Lemma acts_ports_length cs off : length (acts_ports cs off) = n_acts cs.
Proof. rewrite <- act_ports_nested. apply act_ports_length. Qed.

Lemma expect_length cs xs : aligned_list cs -> length xs = n_acts cs -> length (expects cs xs) = n_acts cs.
Proof.
  intros Al L. refine (proj1 (@loop_good cs _ Al [] [] xs [] eq_refl L)).
  apply Forall_forall. intros. apply all_good.
Qed.

(** From the values at the active ports back to the components. *)

Lemma inactive_acts c : forall off y o, a_any c = false ->
  (forall i, off <= i < off + a_np c -> o i = y i) -> acts v0 c off y o.
Proof.
  induction c as [p f|cs IH] using acomp_ind'; intros off y o E H.
  - cbn [acts]. unfold a_any in E. cbn in E. rewrite E. exact H.
  - rewrite acts_nested. revert off E H. induction IH as [|c r Hc Hr IH]; intros off E H; [exact I|].
    cbn [acts_list]. unfold a_any, a_np in E, H. cbn in E, H. rewrite existsb_app in E.
    apply orb_false_iff in E as [E1 E2]. rewrite app_length in H. split.
    + apply Hc; auto. intros i Hi. apply H. unfold a_np in Hi. lia.
    + apply IH; auto. intros i Hi. apply H. unfold a_np in *. cbn in Hi. lia.
Qed.

Lemma all_back c : aligned c -> forall off y o,
  (forall i, off <= i < off + a_np c -> ~ In i (act_ports c off) -> o i = y i) ->
  (a_any c = true -> map o (act_ports c off) = expect c (map y (act_ports c off))) ->
  acts v0 c off y o.
Proof.
  induction c as [p f|cs IH] using acomp_ind'; intros Al off y o Out E.
  - destruct (a_any (Plain p f)) eqn:Any.
    2:{ apply inactive_acts; auto. intros i Hi. apply Out; auto. rewrite act_ports_none; auto. }
    cbn [acts aligned] in *. unfold a_any in Any. cbn [a_ports] in Any. rewrite Any.
    destruct (Al Any) as [All T]. specialize (E eq_refl). rewrite act_ports_all in E by exact All.
    unfold a_np in E. cbn [a_ports expect] in E.
    destruct (T (map y (seq off (length p))) (repeat v0 (length p))) as (l & El & Ll).
    { rewrite map_length, seq_length. reflexivity. }
    rewrite El in *. f_equal. auto.
  - destruct (a_any (Nested cs)) eqn:Any.
    2:{ apply inactive_acts; auto. intros i Hi. apply Out; auto. rewrite act_ports_none; auto. }
    specialize (E eq_refl). clear Any. rewrite acts_nested. rewrite aligned_nested in Al.
    rewrite expect_nested in E. rewrite act_ports_nested in *.
    revert off Out E. induction IH as [|c r Hc Hr IH]; intros off Out E; [exact I|].
    destruct Al as (Ac & Ha & Ar). cbn [acts_list acts_ports expects] in *.
    assert (Disj : forall i, In i (act_ports c off) -> off <= i < off + a_np c).
    { intros i I. unfold act_ports in I. apply filter_In in I as [I _]. apply in_seq in I. lia. }
    assert (Disj' : forall i, In i (acts_ports r (off + a_np c)) -> off + a_np c <= i).
    { intros i I. rewrite <- act_ports_nested in I. unfold act_ports in I. apply filter_In in I as [I _]. apply in_seq in I. lia. }
    assert (NP : a_np (Nested (c :: r)) = a_np c + a_np (Nested r)) by (unfold a_np; cbn; rewrite app_length; lia).
    rewrite !map_app in E.
    assert (E' : (a_any c = true -> map o (act_ports c off) = expect c (map y (act_ports c off))) /\
                 map o (acts_ports r (off + a_np c)) = expects r (map y (acts_ports r (off + a_np c)))).
    { destruct (a_any c) eqn:Any.
      - rewrite firstn_app, skipn_app, map_length, act_ports_length, Nat.sub_diag in E.
        rewrite firstn_all2, skipn_all2 in E by (rewrite map_length, act_ports_length; lia).
        cbn [firstn skipn app] in E. rewrite app_nil_r in E.
        destruct (Ha eq_refl) as [Ns _].
        destruct (@all_good c Ac Any Ns (map y (act_ports c off)) []) as [L _].
        { rewrite map_length. apply act_ports_length. } { cbn. lia. }
        assert (L1 : length (map o (act_ports c off)) = length (expect c (map y (act_ports c off)))).
        { rewrite L, map_length. apply act_ports_length. }
        split; [intros _|]; [apply (f_equal (firstn (length (map o (act_ports c off))))) in E
                            |apply (f_equal (skipn (length (map o (act_ports c off))))) in E].
        + rewrite L1 in E at 2. rewrite !firstn_app, !Nat.sub_diag, !firstn_all in E. cbn [firstn] in E. rewrite !app_nil_r in E. exact E.
        + rewrite L1 in E at 2. rewrite !skipn_app, !Nat.sub_diag, !skipn_all in E. cbn [skipn app] in E. exact E.
      - split; [discriminate|]. rewrite act_ports_none in E by auto. exact E. }
    destruct E' as [E1 E2]. split.
    + apply Hc; auto. intros i Hi Ni. apply Out; [lia|]. rewrite in_app_iff. intros [I|I]; auto.
      apply Disj' in I. lia.
    + apply IH; auto. intros i Hi Ni. apply Out; [lia|]. rewrite in_app_iff. intros [I|I]; auto.
      apply Disj in I. lia.
Qed.
End Act.
