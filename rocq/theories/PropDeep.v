(** C116: deep copies of bounded parameters. *)
From Coq Require Import Lia.
From Verif Require Import Base DeepModel.
Set Implicit Arguments.
Unset Strict Implicit.
Local Open Scope list_scope.
Local Open Scope nat_scope.

Section Deep.
Variables (V B : Type).
Notation store := (store V B).
Implicit Types st : store.

(** All parameters have storages. *)
Definition sound st : Prop := forall o p, nth_error (st_params st) o = Some p -> bp_at p < length (st_data st).
(** [o] is a parameter with this content. *)
Definition holds st (o : nat) (v : V) (b : B) (g : bool) : Prop :=
  exists p, nth_error (st_params st) o = Some p /\ nth_error (st_data st) (bp_at p) = Some v /\ bp_bounds p = b /\ bp_grad p = g.
(** No two different parameters share a storage. *)
Definition separate st (o o' : nat) : Prop :=
  forall p p', nth_error (st_params st) o = Some p -> nth_error (st_params st) o' = Some p' -> bp_at p <> bp_at p'.

Lemma set_nth_same (l : list V) : forall i v, i < length l -> nth_error (set_nth l i v) i = Some v.
Proof. induction l as [|a l IH]; intros [|i] v H; cbn in *; try lia; [reflexivity|]. apply IH. lia. Qed.
Lemma set_nth_other (l : list V) : forall i j v, i <> j -> nth_error (set_nth l i v) j = nth_error l j.
Proof. induction l as [|a l IH]; intros [|i] [|j] v H; cbn; try reflexivity; try lia. apply IH. lia. Qed.

(** A write is seen through the parameter written to, and not through parameters with other storages. *)
Lemma write_same st o v : sound st -> o < length (st_params st) -> data_of (write st o v) o = Some v.
Proof.
  intros H Ho. unfold data_of, write. destruct (nth_error (st_params st) o) as [p|] eqn:E.
  - cbn [st_params st_data]. rewrite E. apply set_nth_same. exact (H o p E).
  - apply nth_error_None in E. lia.
Qed.
Lemma write_other st o o' v : separate st o o' -> data_of (write st o v) o' = data_of st o'.
Proof.
  intros H. unfold data_of, write. destruct (nth_error (st_params st) o) as [p|] eqn:E; [|reflexivity].
  cbn [st_params st_data]. destruct (nth_error (st_params st) o') as [p'|] eqn:E'; [|reflexivity].
  apply set_nth_other. exact (H p p' E E').
Qed.

Definition extends st st' : Prop := exists ds ps, st_data st' = st_data st ++ ds /\ st_params st' = st_params st ++ ps.
Lemma extends_refl st : extends st st.
Proof. exists [], []. now rewrite !app_nil_r. Qed.
Lemma extends_trans st st' st'' : extends st st' -> extends st' st'' -> extends st st''.
Proof. intros (a & b & E1 & E2) (c & d & E3 & E4). exists (a ++ c), (b ++ d). rewrite E3, E4, E1, E2, <- !app_assoc. auto. Qed.
Lemma extends_param st st' o p : extends st st' -> nth_error (st_params st) o = Some p -> nth_error (st_params st') o = Some p.
Proof. intros (a & b & _ & E) H. rewrite E, nth_error_app1; [exact H|]. apply nth_error_Some. congruence. Qed.
Lemma extends_data st st' o p : extends st st' -> nth_error (st_data st) o = Some p -> nth_error (st_data st') o = Some p.
Proof. intros (a & b & E & _) H. rewrite E, nth_error_app1; [exact H|]. apply nth_error_Some. congruence. Qed.
Lemma extends_holds st st' o v b g : extends st st' -> holds st o v b g -> holds st' o v b g.
Proof.
  intros E (p & H1 & H2 & H3 & H4). exists p. split; [exact (extends_param E H1)|]. split; [exact (extends_data E H2)|]. auto.
Qed.

(** ** One copy *)
Lemma copy_param_spec st o : sound st -> o < length (st_params st) ->
  exists st', copy_param st o = Some (st', length (st_params st)) /\ extends st st' /\ sound st' /\
    length (st_params st') = S (length (st_params st)) /\ length (st_data st) <= length (st_data st') /\
    (forall v b g, holds st o v b g -> holds st' (length (st_params st)) v b g) /\
    (forall p, nth_error (st_params st') (length (st_params st)) = Some p -> bp_at p = length (st_data st)).
Proof.
  intros H Ho. unfold copy_param. destruct (nth_error (st_params st) o) as [p|] eqn:E; [|apply nth_error_None in E; lia].
  pose proof (H o p E) as Hp. destruct (nth_error (st_data st) (bp_at p)) as [v|] eqn:Ev; [|apply nth_error_None in Ev; lia].
  eexists. split; [reflexivity|]. cbn [st_params st_data].
  assert (N : forall X (l : list X) x, nth_error (l ++ [x]) (length l) = Some x).
  { intros X l x. rewrite nth_error_app2, Nat.sub_diag by lia. reflexivity. }
  split; [eexists _, _; split; reflexivity|]. split.
  { intros q r. cbn [st_params st_data]. rewrite app_length. cbn [length]. destruct (Nat.lt_ge_cases q (length (st_params st))) as [Hq|Hq].
    - rewrite nth_error_app1 by exact Hq. intros Hr. specialize (H q r Hr). lia.
    - rewrite nth_error_app2 by exact Hq. destruct (q - length (st_params st)) as [|[|k]]; cbn; [|discriminate|discriminate].
      intros [= <-]. cbn. lia. }
  split; [rewrite app_length; cbn; lia|]. split; [rewrite app_length; cbn; lia|]. split.
  - intros v' b g (p' & H1 & H2 & H3 & H4). rewrite E in H1. injection H1 as <-. rewrite Ev in H2. injection H2 as <-.
    eexists. cbn [st_params st_data]. split; [apply N|]. cbn [bp_at bp_bounds bp_grad]. split; [apply N|]. auto.
  - intros q Hq. rewrite N in Hq. injection Hq as <-. reflexivity.
Qed.

(** The copy has the same value, bounds and flag; old parameters are as they were; writes through either do
    not reach the other. *)
Theorem C116_copy st o : sound st -> o < length (st_params st) ->
  exists st' o', copy_param st o = Some (st', o') /\ sound st' /\ length (st_params st) <= o' < length (st_params st') /\
    (forall v b g, holds st o v b g -> holds st' o' v b g) /\
    (forall x v b g, holds st x v b g -> holds st' x v b g) /\
    (forall x v, x < length (st_params st) -> data_of (write st' o' v) x = data_of st x) /\
    (forall x v, x < length (st_params st) -> data_of (write st' x v) o' = data_of st o) /\
    (forall v, data_of (write st' o' v) o' = Some v).
Proof.
  intros H Ho. destruct (copy_param_spec H Ho) as (st' & Hc & Hx & Hs & Hl & Hd & Hh & Ha). exists st', (length (st_params st)).
  assert (Sep : forall x, x < length (st_params st) -> separate st' (length (st_params st)) x).
  { intros x Hx' p p' E E'. rewrite (Ha p E). destruct (nth_error (st_params st) x) as [q|] eqn:Eq; [|apply nth_error_None in Eq; lia].
    rewrite (extends_param Hx Eq) in E'. injection E' as <-. specialize (H x q Eq). lia. }
  assert (Old : forall x, x < length (st_params st) -> data_of st' x = data_of st x).
  { intros x Hx'. unfold data_of. destruct (nth_error (st_params st) x) as [q|] eqn:Eq; [|apply nth_error_None in Eq; lia].
    rewrite (extends_param Hx Eq). destruct (nth_error (st_data st) (bp_at q)) as [v|] eqn:Ev; [exact (extends_data Hx Ev)|].
    apply nth_error_None in Ev. specialize (H x q Eq). lia. }
  split; [exact Hc|]. split; [exact Hs|]. split; [lia|]. split; [exact Hh|]. split; [intros x v b g; apply extends_holds; exact Hx|].
  split; [|split].
  - intros x v Hx'. rewrite write_other by (apply Sep; exact Hx'). now apply Old.
  - intros x v Hx'. rewrite write_other by (intros p p' E E'; apply not_eq_sym; exact (Sep x Hx' p' p E' E)).
    destruct (nth_error (st_params st) o) as [p|] eqn:E; [|apply nth_error_None in E; lia].
    destruct (nth_error (st_data st) (bp_at p)) as [w|] eqn:Ew; [|apply nth_error_None in Ew; specialize (H o p E); lia].
    destruct (Hh w (bp_bounds p) (bp_grad p)) as (p' & E1 & E2 & _); [exists p; auto|].
    unfold data_of. now rewrite E1, E2, E, Ew.
  - intros v. apply write_same; [exact Hs|lia].
Qed.

(** ** A module *)
(** What the copied entries have to be. *)
Definition copies st st' (o o' : nat) : Prop :=
  length (st_params st) <= o' < length (st_params st') /\
  (forall v b g, holds st o v b g -> holds st' o' v b g) /\
  (forall p, nth_error (st_params st') o' = Some p -> length (st_data st) <= bp_at p).

(** The memo: its entries are copies of different parameters in different places. *)
Record good_memo st0 st (memo : list (nat * nat)) : Prop := {
  gm_ext : extends st0 st; gm_sound : sound st;
  gm_copy : forall o o', lookup memo o = Some o' -> copies st0 st o o';
  gm_inj : forall o1 o2 o', lookup memo o1 = Some o' -> lookup memo o2 = Some o' -> o1 = o2;
  gm_sep : forall o1 o2 o1' o2', lookup memo o1 = Some o1' -> lookup memo o2 = Some o2' -> o1 <> o2 -> separate st o1' o2' }.

Lemma deepcopy_step st0 st memo o : sound st0 -> o < length (st_params st0) -> good_memo st0 st memo ->
  exists st' memo' o', deepcopy st memo o = Some (st', memo', o') /\ good_memo st0 st' memo' /\ lookup memo' o = Some o' /\
    (forall x x', lookup memo x = Some x' -> lookup memo' x = Some x').
Proof.
  intros H0 Ho G. unfold deepcopy. destruct (lookup memo o) as [o'|] eqn:E.
  - exists st, memo, o'. auto.
  - destruct G as [Gx Gs Gc Gi Gp]. destruct Gx as (ds & ps & Ed & Ep).
    assert (Ho' : o < length (st_params st)) by (rewrite Ep, app_length; lia).
    destruct (copy_param_spec Gs Ho') as (st' & Hc & Hx & Hs & Hl & Hd & Hh & Ha). rewrite Hc.
    exists st', ((o, length (st_params st)) :: memo), (length (st_params st)). split; [reflexivity|].
    assert (Hlk : forall x, lookup ((o, length (st_params st)) :: memo) x = if o =? x then Some (length (st_params st)) else lookup memo x) by reflexivity.
    assert (Old : forall x x', lookup memo x = Some x' -> x' < length (st_params st)) by (intros x x' Hx'; apply (Gc x x' Hx')).
    split; [|split].
    + split.
      * eapply extends_trans; [|exact Hx]. exists ds, ps. auto.
      * exact Hs.
      * intros x x' Hx'. rewrite Hlk in Hx'. destruct (Nat.eqb_spec o x) as [<-|Hn].
        -- injection Hx' as <-. split; [rewrite Ep at 1; rewrite app_length; lia|]. split.
           ++ intros v b g Hv. apply Hh. eapply extends_holds; [|exact Hv]. exists ds, ps. auto.
           ++ intros p Hp. rewrite (Ha p Hp), Ed, app_length. lia.
        -- destruct (Gc x x' Hx') as (R & Hv & Hp). split; [lia|]. split.
           ++ intros v b g Hb. eapply extends_holds; [exact Hx|]. now apply Hv.
           ++ intros p Hq. apply Hp. destruct (nth_error (st_params st) x') as [q|] eqn:Eq; [|apply nth_error_None in Eq; lia].
              rewrite (extends_param Hx Eq) in Hq. congruence.
      * intros x1 x2 x' E1 E2. rewrite Hlk in E1, E2. destruct (Nat.eqb_spec o x1), (Nat.eqb_spec o x2); try congruence.
        -- injection E1 as <-. specialize (Old _ _ E2). lia.
        -- injection E2 as <-. specialize (Old _ _ E1). lia.
        -- exact (Gi x1 x2 x' E1 E2).
      * assert (New : forall x x', lookup memo x = Some x' -> separate st' (length (st_params st)) x').
        { intros x x' Ex p p' Hp Hp'. rewrite (Ha p Hp). specialize (Old _ _ Ex).
          destruct (nth_error (st_params st) x') as [q|] eqn:Eq; [|apply nth_error_None in Eq; lia].
          rewrite (extends_param Hx Eq) in Hp'. injection Hp' as <-. specialize (Gs x' q Eq). lia. }
        intros x1 x2 x1' x2' E1 E2 Hne. rewrite Hlk in E1, E2. destruct (Nat.eqb_spec o x1), (Nat.eqb_spec o x2); try congruence.
        -- injection E1 as <-. exact (New x2 x2' E2).
        -- injection E2 as <-. intros p p' Hp Hp'. apply not_eq_sym. exact (New x1 x1' E1 p' p Hp' Hp).
        -- intros p p' Hp Hp'. pose proof (Old _ _ E1). pose proof (Old _ _ E2).
           destruct (nth_error (st_params st) x1') as [q|] eqn:Eq; [|apply nth_error_None in Eq; lia].
           destruct (nth_error (st_params st) x2') as [q'|] eqn:Eq'; [|apply nth_error_None in Eq'; lia].
           rewrite (extends_param Hx Eq) in Hp. rewrite (extends_param Hx Eq') in Hp'.
           injection Hp as <-. injection Hp' as <-. exact (Gp x1 x2 x1' x2' E1 E2 Hne q q' Eq Eq').
    + cbn. now rewrite Nat.eqb_refl.
    + intros x x' Ex. rewrite Hlk. destruct (Nat.eqb_spec o x) as [<-|]; [congruence|exact Ex].
Qed.

Lemma copy_dict_good st0 : sound st0 -> forall m st memo, Forall (fun e => snd e < length (st_params st0)) m -> good_memo st0 st memo ->
  exists st' memo' m', copy_dict st memo m = Some (st', memo', m') /\ good_memo st0 st' memo' /\
    (forall x x', lookup memo x = Some x' -> lookup memo' x = Some x') /\
    Forall2 (fun e e' => fst e = fst e' /\ lookup memo' (snd e) = Some (snd e')) m m'.
Proof.
  intros H0. induction m as [|[k o] m IH]; intros st memo Hm G; cbn [copy_dict].
  - exists st, memo, []. auto.
  - inversion Hm as [|? ? Ho Hm']; subst. cbn [snd] in Ho.
    destruct (deepcopy_step H0 Ho G) as (st1 & memo1 & o1 & -> & G1 & L1 & K1).
    destruct (IH st1 memo1 Hm' G1) as (st2 & memo2 & m' & -> & G2 & K2 & F2).
    exists st2, memo2, ((k, o1) :: m'). split; [reflexivity|]. split; [exact G2|]. split; [auto|].
    constructor; [|exact F2]. cbn. auto.
Qed.

(** A copy of a module has the same names; every entry is a copy of the original's, with the same value,
    bounds and flag; entries that are one parameter in the original, and only those, are one in the copy;
    nothing of the original changes, and later writes to either do not reach the other. *)
Theorem C116_module st m : sound st -> Forall (fun e => snd e < length (st_params st)) m ->
  exists st' m', copy_module st m = Some (st', m') /\ map fst m' = map fst m /\
    (forall x v b g, holds st x v b g -> holds st' x v b g) /\
    (forall i k o k' o', nth_error m i = Some (k, o) -> nth_error m' i = Some (k', o') ->
       length (st_params st) <= o' < length (st_params st') /\ (forall v b g, holds st o v b g -> holds st' o' v b g)) /\
    (forall i j e1 e2 e1' e2', nth_error m i = Some e1 -> nth_error m j = Some e2 -> nth_error m' i = Some e1' -> nth_error m' j = Some e2' ->
       (snd e1' = snd e2' <-> snd e1 = snd e2) /\
       (snd e1 <> snd e2 -> forall v, data_of (write st' (snd e1') v) (snd e2') = data_of st' (snd e2'))) /\
    (forall i e' x v, nth_error m' i = Some e' -> x < length (st_params st) ->
       data_of (write st' (snd e') v) x = data_of st x /\ data_of (write st' x v) (snd e') = data_of st' (snd e')).
Proof.
  intros H Hm. assert (G0 : good_memo st st []).
  { split; [apply extends_refl|exact H|discriminate|discriminate|discriminate]. }
  destruct (copy_dict_good H Hm G0) as (st' & memo & m' & Hc & G & _ & F). unfold copy_module. rewrite Hc.
  exists st', m'. split; [reflexivity|].
  assert (At : forall i e e', nth_error m i = Some e -> nth_error m' i = Some e' -> fst e = fst e' /\ lookup memo (snd e) = Some (snd e')).
  { clear - F. induction F as [|a a' m m' Ha _ IH]; intros [|i] e e' E E'; try discriminate.
    - injection E as <-. injection E' as <-. exact Ha.
    - exact (IH i e e' E E'). }
  assert (At' : forall i e', nth_error m' i = Some e' -> exists e, nth_error m i = Some e).
  { clear - F. induction F as [|a a' m m' Ha _ IH]; intros [|i] e' E'; try discriminate; [exists a; reflexivity|exact (IH i e' E')]. }
  destruct G as [Gx Gs Gc Gi Gp].
  split; [clear - F; induction F as [|a a' m m' [E _] _ IH]; cbn; congruence|].
  split; [intros x v b g; apply extends_holds; exact Gx|].
  split; [intros i k o k' o' E E'; destruct (At i _ _ E E') as [_ L]; destruct (Gc o o' L) as (R & Hv & _); auto|].
  split.
  - intros i j e1 e2 e1' e2' E1 E2 E1' E2'. destruct (At i _ _ E1 E1') as [_ L1]. destruct (At j _ _ E2 E2') as [_ L2]. split.
    + split; [intros E; rewrite E in L1; exact (Gi _ _ _ L1 L2)|intros E; rewrite E, L2 in L1; congruence].
    + intros Hne v. apply write_other. exact (Gp _ _ _ _ L1 L2 Hne).
  - intros i e' x v E' Hx. destruct (At' i e' E') as (e & E). destruct (At i e e' E E') as [_ L]. destruct (Gc _ _ L) as (R & _ & Hp).
    destruct (nth_error (st_params st) x) as [q|] eqn:Eq; [|apply nth_error_None in Eq; lia].
    assert (Sep : separate st' (snd e') x).
    { intros p p' Ep Ep'. rewrite (extends_param Gx Eq) in Ep'. injection Ep' as <-. specialize (Hp p Ep). specialize (H x q Eq). lia. }
    split.
    + rewrite write_other by exact Sep. unfold data_of. rewrite Eq, (extends_param Gx Eq).
      destruct (nth_error (st_data st) (bp_at q)) as [w|] eqn:Ew; [exact (extends_data Gx Ew)|].
      apply nth_error_None in Ew. specialize (H x q Eq). lia.
    + apply write_other. intros p p' Ep Ep'. apply not_eq_sym. exact (Sep p' p Ep' Ep).
Qed.
End Deep.

(** A module with a parameter under two names and another one. *)
Example C116_ex : sound {| st_data := [5; 7]; st_params := [{| bp_at := 0; bp_bounds := (0, 1); bp_grad := true |}; {| bp_at := 1; bp_bounds := (2, 3); bp_grad := false |}] |} /\
  copy_module {| st_data := [5; 7]; st_params := [{| bp_at := 0; bp_bounds := (0, 1); bp_grad := true |}; {| bp_at := 1; bp_bounds := (2, 3); bp_grad := false |}] |}
    [("a"%string, 0); ("b"%string, 1); ("c"%string, 0)]
  = Some ({| st_data := [5; 7; 5; 7]; st_params := [{| bp_at := 0; bp_bounds := (0, 1); bp_grad := true |}; {| bp_at := 1; bp_bounds := (2, 3); bp_grad := false |};
             {| bp_at := 2; bp_bounds := (0, 1); bp_grad := true |}; {| bp_at := 3; bp_bounds := (2, 3); bp_grad := false |}] |},
          [("a"%string, 2); ("b"%string, 3); ("c"%string, 2)]).
Proof.
  split; [|reflexivity]. intros [|[|o]] p; cbn; [intros [= <-]; cbn; lia|intros [= <-]; cbn; lia|destruct o; discriminate].
Qed.

(** Two different parameters on one storage do not stay coupled: their copies are separate. *)
Theorem C116_storage_refuted : exists (st : store nat nat) m st' m', copy_module st m = Some (st', m') /\
  m = [("a"%string, 0); ("b"%string, 1)] /\ m' = [("a"%string, 2); ("b"%string, 3)] /\
  data_of (write st 0 9) 1 = Some 9 /\ data_of (write st' 2 9) 3 = Some 5.
Proof.
  exists {| st_data := [5]; st_params := [{| bp_at := 0; bp_bounds := 0; bp_grad := true |}; {| bp_at := 0; bp_bounds := 0; bp_grad := true |}] |}.
  exists [("a"%string, 0); ("b"%string, 1)]. eexists _, _. split; [reflexivity|]. repeat split.
Qed.

Print Assumptions C116_copy.
Print Assumptions C116_module.
Print Assumptions C116_storage_refuted.
