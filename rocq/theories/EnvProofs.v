(** Facts about the environment model. *)
From Coq Require Import QArith Qabs Qfield.
From Verif Require Import Base SimModel EnvModel EnvSpec.
Set Implicit Arguments.
Unset Strict Implicit.
Local Open Scope nat_scope.

Lemma bind_Ok : forall A B (r : res A) (f : A -> res B) b,
  bind r f = Ok b -> exists a, r = Ok a /\ f a = Ok b.
Proof. intros A B [a|e] f b H; [exists a; auto|discriminate]. Qed.

Lemma bind_Err : forall A B (r : res A) (f : A -> res B) e,
  bind r f = Err e -> r = Err e \/ exists a, r = Ok a /\ f a = Err e.
Proof. intros A B [a|e'] f e H; [right; exists a; auto|left; cbn in H; congruence]. Qed.

Ltac ok H x Hx := apply bind_Ok in H; destruct H as (x & Hx & H).

(** ** Numbers *)
Lemma Qeq_bool_0 : forall q, Qeq_bool q 0 = false <-> ~ (q == 0)%Q.
Proof.
  intros q; split; intros H.
  - intros E. apply Qeq_bool_iff in E. congruence.
  - destruct (Qeq_bool q 0) eqn:E; [apply Qeq_bool_iff in E; contradiction|reflexivity].
Qed.

Lemma pydiv_Ok : forall a b q, pydiv a b = Ok q <-> ~ (b == 0)%Q /\ q = (a / b)%Q.
Proof.
  intros a b q. unfold pydiv. destruct (Qeq_bool b 0) eqn:E.
  - split; [discriminate|]. intros [N _]. apply Qeq_bool_iff in E. contradiction.
  - apply Qeq_bool_0 in E. split; [intros H; injection H; auto|]. intros [_ ->]; reflexivity.
Qed.

Lemma pydiv_nz : forall a b, ~ (b == 0)%Q -> pydiv a b = Ok (a / b)%Q.
Proof. intros a b H. apply pydiv_Ok. auto. Qed.

Lemma pydiv_0 : forall a b, (b == 0)%Q -> pydiv a b = Err ZeroDivisionError.
Proof. intros a b H. unfold pydiv. apply Qeq_bool_iff in H. rewrite H. reflexivity. Qed.

Lemma pydiv_Err : forall a b e, pydiv a b = Err e -> e = ZeroDivisionError.
Proof. intros a b e. unfold pydiv. destruct (Qeq_bool b 0); intros H; inversion H; reflexivity. Qed.

Lemma Qle_bool_false : forall a b, Qle_bool a b = false <-> (b < a)%Q.
Proof.
  intros a b; split; intros H.
  - destruct (Qlt_le_dec b a) as [L|L]; [exact L|]. apply Qle_bool_iff in L. congruence.
  - destruct (Qle_bool a b) eqn:E; [apply Qle_bool_iff in E|reflexivity].
    exfalso. apply (Qlt_not_le _ _ H E).
Qed.

(** Truncation of a non-negative rational. *)
Lemma long_floor : forall q n, (0 <= n)%Z -> (inject_Z n <= q)%Q -> (q < inject_Z (n + 1))%Q ->
  long q = n.
Proof.
  intros [a b] n N L H. unfold long, Qle, Qlt, inject_Z in *; cbn [Qnum Qden] in *.
  rewrite Z.mul_1_r in *.
  assert (A : (0 <= a)%Z) by nia.
  rewrite Z.quot_div_nonneg by lia.
  symmetry. apply (Z.div_unique_pos a (Z.pos b) n (a - Z.pos b * n)); [|ring]. nia.
Qed.

Lemma long_bounds : forall q, (0 <= q)%Q ->
  (0 <= long q)%Z /\ (inject_Z (long q) <= q)%Q /\ (q < inject_Z (long q + 1))%Q.
Proof.
  intros [a b] H. unfold long, Qle, Qlt, inject_Z in *; cbn [Qnum Qden] in *.
  assert (A : (0 <= a)%Z) by lia.
  rewrite Z.quot_div_nonneg by lia.
  pose proof (Z.div_mod a (Z.pos b)). pose proof (Z.mod_pos_bound a (Z.pos b)).
  assert (0 <= a / Z.pos b)%Z by (apply Z.div_pos; lia).
  repeat split; nia.
Qed.

Lemma long_int : forall q n, (q == inject_Z n)%Q -> long q = n.
Proof.
  intros [a b] n H. unfold long, Qeq, inject_Z in *; cbn [Qnum Qden] in *.
  rewrite Z.mul_1_r in H. rewrite H. apply Z.quot_mul. lia.
Qed.

(** ** Mutually exclusive arguments *)
Definition flag (k : kw) (a : argname) : bool :=
  match a with
  | Adt => given (k_dt k) | Asamplerate => given (k_samplerate k)
  | Anum_t => given (k_num_t k) | At0 => given (k_t0 k) | At1 => given (k_t1 k)
  | At => given (k_t k) | Abitrate => given (k_bitrate k) | Abitlength => given (k_bitlength k)
  | Awl => given (k_wl k) | Af => given (k_f k) | Adwl => given (k_dwl k) | Adf => given (k_df k)
  | Anum_wl => given (k_num_wl k) | Anum_f => given (k_num_f k)
  | Awl0 => given (k_wl0 k) | Af0 => given (k_f0 k)
  | Awl1 => given (k_wl1 k) | Af1 => given (k_f1 k)
  end.

Lemma given_iff : forall A (o : option A), given o = true <-> o <> None.
Proof. intros A [a|]; cbn; split; congruence. Qed.

Lemma flag_iff : forall k a, flag k a = true <-> is_given k a.
Proof. intros k []; cbn [flag is_given]; apply given_iff. Qed.

Lemma many_pos : forall A (f : A -> bool) g,
  0 < many (map f g) <-> exists a, In a g /\ f a = true.
Proof.
  intros A f g. unfold many. induction g as [|a g IH]; cbn.
  - split; [lia|intros (a & [] & _)].
  - destruct (f a) eqn:E; cbn.
    + split; [intros _; exists a; auto|lia].
    + rewrite IH. split; intros (b & I & F); exists b; [auto|].
      destruct I as [->|I]; [congruence|auto].
Qed.

Lemma many_two : forall A (f : A -> bool) g, NoDup g ->
  1 < many (map f g) <-> exists a b, In a g /\ In b g /\ a <> b /\ f a = true /\ f b = true.
Proof.
  intros A f g. induction g as [|a g IH]; intros ND.
  - cbn. split; [lia|intros (a & _ & [] & _)].
  - inversion ND as [|? ? NI ND']; subst.
    assert (M : many (map f (a :: g)) = (if f a then 1 else 0) + many (map f g)).
    { unfold many. cbn. destruct (f a); reflexivity. }
    rewrite M. destruct (f a) eqn:E; cbn.
    + assert (P : 1 < S (many (map f g)) <-> 0 < many (map f g)) by lia.
      rewrite P, many_pos. split.
      * intros (b & I & F). exists a, b. repeat split; auto. intros ->; contradiction.
      * intros (x & y & Ix & Iy & N & Fx & Fy).
        destruct Ix as [->|Ix].
        -- destruct Iy as [->|Iy]; [congruence|]. exists y; auto.
        -- exists x; auto.
    + rewrite IH by exact ND'. split.
      * intros (x & y & Ix & Iy & N). exists x, y; auto.
      * intros (x & y & Ix & Iy & N & Fx & Fy).
        destruct Ix as [->|Ix]; [congruence|]. destruct Iy as [->|Iy]; [congruence|].
        exists x, y; auto.
Qed.

Definition group_bad (k : kw) (g : list argname) : bool := 1 <? many (map (flag k) g).

Lemma group_bad_iff : forall k g, NoDup g ->
  group_bad k g = true <->
  exists a b, In a g /\ In b g /\ a <> b /\ is_given k a /\ is_given k b.
Proof.
  intros k g ND. unfold group_bad. rewrite Nat.ltb_lt, many_two by exact ND.
  split; intros (a & b & Ia & Ib & N & Fa & Fb); exists a, b; repeat split; auto;
    apply flag_iff; assumption.
Qed.

Lemma groups_NoDup : forall g, In g groups -> NoDup g.
Proof.
  intros g H. cbn in H.
  repeat (destruct H as [<-|H]; [repeat constructor; cbn; intuition congruence|]).
  destruct H.
Qed.

Lemma conflict_iff : forall k, conflict k <-> existsb (group_bad k) groups = true.
Proof.
  intros k. rewrite existsb_exists. split.
  - intros (g & a & b & G & R). exists g. split; [exact G|].
    apply group_bad_iff; [apply groups_NoDup; exact G|]. exists a, b; exact R.
  - intros (g & G & B). apply group_bad_iff in B; [|apply groups_NoDup; exact G].
    destruct B as (a & b & R). exists g, a, b; auto.
Qed.

(** The checks of the code in the words of the specification. *)
Lemma checks_iff : forall d k,
  checks d k =
  if existsb (group_bad k) groups
     || negb (Qle_bool 0 (get (k_dt k) (d_dt d)))
     || negb (Qle_bool (get (k_t0 k) (d_t0 d)) (get (k_t1 k) (d_t1 d)))
  then Err ValueError else Ok tt.
Proof.
  intros d k. unfold checks, groups.
  assert (two : forall x y, x && y = (1 <? many [x; y])) by (intros [] []; reflexivity).
  assert (imp : forall a b c e x y, 1 <? many [a; b; c; e; x; y] = false -> x && y = false)
    by (intros [] [] [] [] [] []; cbn; auto).
  cbn [existsb]. unfold group_bad. cbn [map flag]. rewrite !two.
  destruct (1 <? many [given (k_dt k); given (k_samplerate k); given (k_t k)]); [reflexivity|].
  destruct (1 <? many [given (k_t0 k); given (k_t k)]); [reflexivity|].
  destruct (1 <? many [given (k_t1 k); given (k_num_t k); given (k_t k)]); [reflexivity|].
  destruct (1 <? many [given (k_bitrate k); given (k_bitlength k)]); [reflexivity|].
  destruct (1 <? many [given (k_dwl k); given (k_df k); given (k_num_wl k); given (k_num_f k);
                       given (k_wl k); given (k_f k)]) eqn:E5.
  { destruct (1 <? many [given (k_wl k); given (k_f k)]); reflexivity. }
  apply imp in E5. rewrite two in E5. rewrite E5.
  destruct (1 <? many [given (k_wl0 k); given (k_f0 k); given (k_wl k); given (k_f k)]);
    [reflexivity|].
  destruct (1 <? many [given (k_wl1 k); given (k_f1 k); given (k_wl k); given (k_f k)]);
    [reflexivity|].
  destruct (Qle_bool 0 _), (Qle_bool (get (k_t0 k) _) _); reflexivity.
Qed.

Definition bad_times (d : dflt) (k : kw) : Prop :=
  (get (k_dt k) (d_dt d) < 0)%Q \/ (get (k_t1 k) (d_t1 d) < get (k_t0 k) (d_t0 d))%Q.

Lemma checks_Err : forall d k,
  checks d k = Err ValueError <-> conflict k \/ bad_times d k.
Proof.
  intros d k. rewrite checks_iff, conflict_iff. unfold bad_times.
  rewrite <- !Qle_bool_false.
  destruct (existsb _ _), (Qle_bool 0 _), (Qle_bool (get (k_t0 k) _) _); cbn; intuition congruence.
Qed.

Lemma checks_cases : forall d k, checks d k = Ok tt \/ checks d k = Err ValueError.
Proof. intros d k. rewrite checks_iff. destruct (_ || _); auto. Qed.

Lemma checks_Ok : forall d k, checks d k = Ok tt <-> ~ conflict k /\ ~ bad_times d k.
Proof.
  intros d k. destruct (checks_cases d k) as [H|H]; rewrite H.
  - split; [intros _|auto].
    split; intros C; assert (E : checks d k = Err ValueError) by (apply checks_Err; auto); congruence.
  - apply checks_Err in H. split; [discriminate|]. tauto.
Qed.

(** ** Which exceptions where *)
Lemma arange_Err : forall a b s e, arange a b s = Err e -> e = ZeroDivisionError /\ (s == 0)%Q.
Proof.
  intros a b s e H. unfold arange in H. apply bind_Err in H. destruct H as [H|(q & H & H')].
  - unfold pydiv in H. destruct (Qeq_bool s 0) eqn:E; [|discriminate].
    apply Qeq_bool_iff in E. inversion H; auto.
  - destruct (_ =? 0)%Z; [discriminate|]. destruct (0 <? _)%Z; discriminate.
Qed.

Lemma linspace_Err : forall a b n e, linspace a b n = Err e -> e = ValueError /\ (n < 0)%Z.
Proof.
  intros a b n e H. unfold linspace in H. destruct (n <? 0)%Z eqn:E; [|discriminate].
  apply Z.ltb_lt in E. inversion H; auto.
Qed.

Lemma flat_Err : forall a e, flat a = Err e -> e = ValueError /\ a = HighDim.
Proof. intros [q|l|] e H; cbn in H; try discriminate. inversion H; auto. Qed.

Definition odd_args (d : dflt) (k : kw) : Prop :=
  get (k_t k) (d_t d) = HighDim \/ (exists n, k_num_t k = Some n /\ (n < 0)%Z) \/
  get (k_wl k) (d_wl d) = HighDim \/ k_f k = Some HighDim.

Lemma freq_ends_Err : forall d k e, freq_ends d k = Err e -> e = ZeroDivisionError.
Proof.
  intros d k e H. unfold freq_ends in H. apply bind_Err in H. destruct H as [H|(f1 & _ & H)].
  - destruct (k_wl0 k); [eapply pydiv_Err; eauto|discriminate].
  - apply bind_Err in H. destruct H as [H|(f0 & _ & H)]; [|discriminate].
    destruct (k_wl1 k); [eapply pydiv_Err; eauto|discriminate].
Qed.

Lemma time_grid_Err : forall d k, time_grid d k = Err ValueError -> odd_args d k.
Proof.
  intros d k H. unfold time_grid in H. destruct (given (k_t k) || _).
  - left. apply flat_Err in H. tauto.
  - apply bind_Err in H. destruct H as [H|(dt & _ & H)].
    + destruct (k_samplerate k); [apply pydiv_Err in H|]; discriminate.
    + destruct (k_num_t k) as [n|] eqn:E.
      * apply linspace_Err in H. right; left. exists n. tauto.
      * apply arange_Err in H. destruct H; discriminate.
Qed.

Lemma wl_grid_Err : forall d k, wl_grid d k = Err ValueError -> odd_args d k.
Proof.
  intros d k H. unfold wl_grid in H. destruct (given (k_wl k) || _ || _).
  - apply bind_Err in H. destruct H as [H|(w & Hw & H)].
    + destruct (k_f k) as [[q|l|]|]; cbn in H; try discriminate.
      apply bind_Err in H. destruct H as [H|(r & _ & H)]; [|discriminate].
      apply pydiv_Err in H; discriminate.
    + apply flat_Err in H. destruct H as [_ ->].
      destruct (k_f k) as [f|] eqn:E.
      * right; right; right. rewrite E. destruct f as [q|l|]; cbn in Hw; [|discriminate|reflexivity].
        apply bind_Ok in Hw. destruct Hw as (r & _ & Hw). discriminate.
      * right; right; left. injection Hw; auto.
  - destruct (k_num_f k) as [n|].
    + apply bind_Err in H. destruct H as [H|((f0 & f1) & _ & H)];
        [apply freq_ends_Err in H; discriminate|].
      apply bind_Err in H. destruct H as [H|(df & _ & H)]; [apply pydiv_Err in H; discriminate|].
      apply bind_Err in H. destruct H as [H|(f & _ & H)]; [|discriminate].
      apply arange_Err in H. destruct H; discriminate.
    + destruct (k_df k) as [df|].
      * apply bind_Err in H. destruct H as [H|((f0 & f1) & _ & H)];
          [apply freq_ends_Err in H; discriminate|].
        apply bind_Err in H. destruct H as [H|(f & _ & H)]; [|discriminate].
        apply arange_Err in H. destruct H; discriminate.
      * apply bind_Err in H. destruct H as [H|(w0 & _ & H)];
          [destruct (k_f0 k); [apply pydiv_Err in H|]; discriminate|].
        apply bind_Err in H. destruct H as [H|(w1 & _ & H)];
          [destruct (k_f1 k); [apply pydiv_Err in H|]; discriminate|].
        apply bind_Err in H. destruct H as [H|(dw & _ & H)];
          [destruct (k_num_wl k); [apply pydiv_Err in H|]; discriminate|].
        apply arange_Err in H. destruct H; discriminate.
Qed.

Lemma construct_ValueError : forall d k,
  construct d k = Err ValueError -> conflict k \/ bad_times d k \/ odd_args d k.
Proof.
  intros d k H. unfold construct in H.
  apply bind_Err in H. destruct H as [H|(u & _ & H)]; [apply checks_Err in H; tauto|].
  apply bind_Err in H. destruct H as [H|(b & _ & H)].
  { unfold bitrate_of in H. destruct (k_bitlength k).
    - apply bind_Err in H. destruct H as [H|(r & _ & H)]; [apply pydiv_Err in H|]; discriminate.
    - destruct (k_bitrate k); discriminate. }
  apply bind_Err in H. destruct H as [H|(t & _ & H)]; [apply time_grid_Err in H; tauto|].
  apply bind_Err in H. destruct H as [H|(w & _ & H)]; [apply wl_grid_Err in H; tauto|].
  apply bind_Err in H. destruct H as [H|(t0 & _ & H)];
    [match type of H with head ?l = _ => destruct l; discriminate end|].
  apply bind_Err in H. destruct H as [H|(s & _ & H)].
  { destruct (step_of _); [|discriminate]. apply bind_Err in H.
    destruct H as [H|(r & _ & H)]; [apply pydiv_Err in H|]; discriminate. }
  apply bind_Err in H. destruct H as [H|(l & _ & H)].
  { match type of H with match ?o with _ => _ end = _ => destruct o; [|discriminate] end.
    apply bind_Err in H.
    destruct H as [H|(r & _ & H)]; [apply pydiv_Err in H|]; discriminate. }
  apply bind_Err in H. destruct H as [H|(w0 & _ & H)]; [destruct w; discriminate|].
  apply bind_Err in H. destruct H as [H|(f0 & _ & H)]; [destruct w; discriminate|discriminate].
Qed.

Lemma construct_refuses : forall d k,
  conflict k \/ bad_times d k -> construct d k = Err ValueError.
Proof. intros d k H. apply checks_Err in H. unfold construct. rewrite H. reflexivity. Qed.

(** Everything a created environment satisfies. *)
Lemma construct_Ok : forall d k e, construct d k = Ok e ->
  exists t' w b, time_grid d k = Ok t' /\ wl_grid d k = Ok w /\ bitrate_of d k = Ok b /\
    checks d k = Ok tt /\
    n_freqdomain e = get (k_freqdomain k) (d_freqdomain d) /\
    n_t e = (if n_freqdomain e then firstn 1 t' else t') /\
    head (n_t e) = Ok (n_t0 e) /\ n_t1 e = end_first (n_t e) /\ n_num_t e = length (n_t e) /\
    n_dt e = step_of (n_t e) /\
    n_samplerate e = option_map (fun x => 1 / x)%Q (n_dt e) /\
    (forall x, n_dt e = Some x -> ~ (x == 0)%Q) /\
    n_bitrate e = (if n_freqdomain e then None else b) /\
    n_bitlength e = option_map (fun x => 1 / x)%Q (n_bitrate e) /\
    (forall x, n_bitrate e = Some x -> ~ (x == 0)%Q) /\
    n_wl e = w /\ head w = Ok (n_wl0 e) /\ n_wl1 e = end_last w /\ n_num_wl e = length w /\
    n_dwl e = step_of w /\ n_c e = light d k /\
    n_f e = map (fun q => n_c e / q)%Q w /\ head (n_f e) = Ok (n_f0 e) /\
    n_f1 e = end_last (n_f e) /\ n_num_f e = length (n_f e) /\ n_df e = step_of (n_f e) /\
    n_grad e = get (k_grad k) (d_grad d) /\ n_name e = get (k_name k) (d_name d).
Proof.
  intros d k e H. unfold construct in H.
  ok H u Hu. ok H b Hb. ok H t' Ht. ok H w Hw. ok H t0 Ht0. ok H s Hs. ok H l Hl.
  ok H w0 Hw0. ok H f0 Hf0. destruct u.
  exists t', w, b. injection H as <-. cbn.
  assert (S1 : s = option_map (fun x => (1 / x)%Q)
                     (step_of (if get (k_freqdomain k) (d_freqdomain d) then firstn 1 t' else t'))
               /\ forall x, step_of (if get (k_freqdomain k) (d_freqdomain d) then firstn 1 t' else t') = Some x ->
                  ~ (x == 0)%Q).
  { destruct (step_of _) as [dt|]; cbn.
    - ok Hs r Hr. apply pydiv_Ok in Hr. destruct Hr as [N ->]. injection Hs as <-.
      split; [reflexivity|]. intros x E; injection E as <-; exact N.
    - injection Hs as <-. split; [reflexivity|discriminate]. }
  assert (S2 : l = option_map (fun x => (1 / x)%Q)
                     (if get (k_freqdomain k) (d_freqdomain d) then None else b)
               /\ forall x, (if get (k_freqdomain k) (d_freqdomain d) then None else b) = Some x ->
                  ~ (x == 0)%Q).
  { destruct (if get (k_freqdomain k) (d_freqdomain d) then None else b) as [x|]; cbn.
    - ok Hl r Hr. apply pydiv_Ok in Hr. destruct Hr as [N ->]. injection Hl as <-.
      split; [reflexivity|]. intros y E; injection E as <-; exact N.
    - injection Hl as <-. split; [reflexivity|discriminate]. }
  destruct S1 as [-> S1], S2 as [-> S2].
  repeat (split; [first [assumption|reflexivity]|]). reflexivity.
Qed.

Ltac made H :=
  let p := fresh "t'" in let w := fresh "w" in let b := fresh "b" in
  pose proof (construct_Ok H) as
    (p & w & b & MT & MW & MB & MC & Mfd & Mt & Mt0 & Mt1 & Mnt & Mdt & Msr & Mdtnz & Mbr & Mbl &
     Mbrnz & Mwl & Mwl0 & Mwl1 & Mnwl & Mdwl & Mc & Mf & Mf0 & Mf1 & Mnf & Mdf & Mg & Mn).

(** ** Grids *)
Lemma nth_map_seq : forall (f : nat -> Q) n i, i < n -> nth i (map f (seq 0 n)) 0%Q = f i.
Proof.
  intros f n i H. rewrite (nth_indep _ 0%Q (f 0)) by (rewrite map_length, seq_length; exact H).
  rewrite map_nth. rewrite seq_nth by exact H. reflexivity.
Qed.

Lemma linspace_equidistant : forall t0 dt n l, (0 < n)%Z ->
  linspace t0 (t0 + inject_Z n * dt) n = Ok l -> equidistant l t0 dt (Z.to_nat n).
Proof.
  intros t0 dt n l N H. unfold linspace in H.
  replace (n <? 0)%Z with false in H by (symmetry; apply Z.ltb_ge; lia).
  injection H as <-. split; [rewrite map_length, seq_length; reflexivity|].
  intros i Hi. rewrite nth_map_seq by exact Hi.
  assert (NZ : ~ (inject_Z n == 0)%Q).
  { unfold Qeq, inject_Z; cbn. lia. }
  field. exact NZ.
Qed.

Lemma arange_equidistant : forall start stop step l, arange start stop step = Ok l ->
  let q := ((stop - start) / step)%Q in
  equidistant l start (if (0 <=? long q)%Z then step else - step)%Q
    (if (long q =? 0)%Z then 1 else Z.abs_nat (long q)).
Proof.
  intros start stop step l H q. unfold arange in H. ok H r Hr. apply pydiv_Ok in Hr.
  destruct Hr as [N ->]. fold q in H.
  destruct (long q =? 0)%Z eqn:E0.
  - injection H as <-. split; [reflexivity|]. intros i Hi. replace i with 0 by lia. cbn.
    ring.
  - destruct (0 <? long q)%Z eqn:E1.
    + apply Z.ltb_lt in E1. replace (0 <=? long q)%Z with true by (symmetry; apply Z.leb_le; lia).
      injection H as <-. replace (Z.abs_nat (long q)) with (Z.to_nat (long q)) by lia.
      split; [rewrite map_length, seq_length; reflexivity|].
      intros i Hi. rewrite nth_map_seq by exact Hi. ring.
    + apply Z.ltb_ge in E1. apply Z.eqb_neq in E0.
      replace (0 <=? long q)%Z with false by (symmetry; apply Z.leb_gt; lia).
      injection H as <-. replace (Z.abs_nat (long q)) with (Z.to_nat (- long q)) by lia.
      split; [rewrite map_length, seq_length; reflexivity|].
      intros i Hi. rewrite nth_map_seq by exact Hi. rewrite inject_Z_opp. ring.
Qed.

(** The grid from start to stop with a positive step. *)
Lemma arange_up : forall start stop step l, (0 < step)%Q -> (start <= stop)%Q ->
  arange start stop step = Ok l ->
  exists n : nat, equidistant l start step (Nat.max 1 n) /\
    (start + inject_Z (Z.of_nat n) * step <= stop)%Q /\
    (stop < start + inject_Z (Z.of_nat (S n)) * step)%Q.
Proof.
  intros start stop step l SP LE H. pose proof (arange_equidistant H) as E. cbv zeta in E.
  set (q := ((stop - start) / step)%Q) in *.
  assert (Q0 : (0 <= q)%Q).
  { unfold q. apply Qle_shift_div_l; [exact SP|]. rewrite Qmult_0_l.
    apply Qle_minus_iff in LE. exact LE. }
  assert (QS : (q * step == stop - start)%Q).
  { unfold q. field. intros Z. rewrite Z in SP. apply Qlt_irrefl in SP. exact SP. }
  destruct (long_bounds Q0) as (B0 & B1 & B2).
  replace (0 <=? long q)%Z with true in E by (symmetry; apply Z.leb_le; lia).
  exists (Z.to_nat (long q)). split; [|split].
  - replace (Nat.max 1 (Z.to_nat (long q)))
      with (if (long q =? 0)%Z then 1 else Z.abs_nat (long q)); [exact E|].
    destruct (long q =? 0)%Z eqn:Z0; [apply Z.eqb_eq in Z0; rewrite Z0; reflexivity|].
    apply Z.eqb_neq in Z0. lia.
  - rewrite Z2Nat.id by exact B0.
    apply (Qmult_le_compat_r _ _ step) in B1; [|apply Qlt_le_weak; exact SP].
    rewrite QS in B1. apply (Qplus_le_compat start start) in B1; [|apply Qle_refl].
    setoid_replace (start + (stop - start))%Q with stop in B1 by ring. exact B1.
  - replace (Z.of_nat (S (Z.to_nat (long q)))) with (long q + 1)%Z by lia.
    apply (Qmult_lt_compat_r _ _ step SP) in B2.
    rewrite QS in B2. apply (Qplus_lt_r _ _ start) in B2.
    setoid_replace (start + (stop - start))%Q with stop in B2 by ring. exact B2.
Qed.

(** A range split in [n] parts. *)
Lemma arange_split : forall start stop n step l, (n <> 0)%Z -> ~ (start == stop)%Q ->
  pydiv (stop - start) (inject_Z n) = Ok step -> arange start stop step = Ok l ->
  equidistant l start ((stop - start) / inject_Z (Z.abs n))%Q (Z.abs_nat n).
Proof.
  intros start stop n step l N NE HS H.
  apply pydiv_Ok in HS. destruct HS as [NZ ->].
  pose proof (arange_equidistant H) as E. cbv zeta in E.
  assert (L : long ((stop - start) / ((stop - start) / inject_Z n))%Q = n).
  { apply long_int. field. split; [exact NZ|]. intros Z. apply NE.
    assert (A : (stop == stop - start + start)%Q) by ring. rewrite A, Z. ring. }
  rewrite L in E. destruct E as [E1 E2].
  replace (n =? 0)%Z with false in * by (symmetry; apply Z.eqb_neq; exact N).
  split; [exact E1|]. intros i Hi. rewrite (E2 i Hi).
  destruct (0 <=? n)%Z eqn:P.
  - apply Z.leb_le in P. rewrite Z.abs_eq by exact P. reflexivity.
  - apply Z.leb_gt in P. rewrite Z.abs_neq by lia. rewrite inject_Z_opp. field. exact NZ.
Qed.

Lemma arange_split_ok : forall start stop n, (n <> 0)%Z -> ~ (start == stop)%Q ->
  exists step l, pydiv (stop - start) (inject_Z n) = Ok step /\ arange start stop step = Ok l.
Proof.
  intros start stop n N NE.
  assert (NZ : ~ (inject_Z n == 0)%Q) by (unfold Qeq, inject_Z; cbn; lia).
  assert (D : ~ (stop - start == 0)%Q).
  { intros Z. apply NE. assert (A : (stop == stop - start + start)%Q) by ring. rewrite A, Z. ring. }
  exists ((stop - start) / inject_Z n)%Q. unfold arange.
  assert (SN : ~ ((stop - start) / inject_Z n == 0)%Q).
  { intros Z. apply D. assert (A : (stop - start == (stop - start) / inject_Z n * inject_Z n)%Q)
      by (field; exact NZ). rewrite A, Z. ring. }
  rewrite (pydiv_nz (stop - start)%Q SN). cbn [bind].
  destruct (_ =? 0)%Z; [eexists; split; [apply pydiv_nz; exact NZ|reflexivity]|].
  destruct (0 <? _)%Z; eexists; (split; [apply pydiv_nz; exact NZ|reflexivity]).
Qed.

(** The reported attributes of an equidistant grid. *)
Lemma equidistant_head : forall l s d n x, equidistant l s d n -> head l = Ok x -> (x == s)%Q.
Proof.
  intros l s d n x [L E] H. destruct l as [|a l]; cbn in H; [discriminate|]. injection H as <-.
  cbn in L. specialize (E 0 ltac:(lia)). cbn in E. rewrite E. ring.
Qed.

Lemma equidistant_step : forall l s d n x, equidistant l s d n -> step_of l = Some x ->
  (x == d)%Q /\ 2 <= n.
Proof.
  intros l s d n x [L E] H. destruct l as [|a [|b l]]; cbn in H; try discriminate.
  injection H as <-. cbn in L. pose proof (E 0 ltac:(lia)) as E0. pose proof (E 1 ltac:(lia)) as E1.
  cbn in E0, E1. rewrite E0, E1. split; [ring|lia].
Qed.

Lemma last_nth : forall (l : list Q) x, last l x = nth (length l - 1) l x.
Proof.
  induction l as [|a l IH]; intros x; [reflexivity|].
  destruct l as [|b l]; [reflexivity|].
  change (last (a :: b :: l) x) with (last (b :: l) x). rewrite IH.
  cbn [length]. replace (S (S (length l)) - 1) with (S (S (length l) - 1)) by lia. reflexivity.
Qed.

Lemma equidistant_end : forall l s d n x, equidistant l s d n -> end_first l = Some x ->
  (x == s + inject_Z (Z.of_nat n) * d)%Q /\ 2 <= n.
Proof.
  intros l s d n x EQ H. pose proof EQ as [L E].
  destruct l as [|a [|b l]]; unfold end_first in H; try discriminate.
  assert (X : x = (last (a :: b :: l) 0 + (b - a))%Q) by congruence. clear H. subst x.
  rewrite last_nth, L. cbn [length] in L.
  rewrite (E (n - 1)) by lia.
  pose proof (E 0 ltac:(lia)) as E0. pose proof (E 1 ltac:(lia)) as E1. cbn in E0, E1.
  rewrite E0, E1. split; [|lia].
  replace (Z.of_nat n) with (Z.of_nat (n - 1) + 1)%Z by lia. rewrite inject_Z_plus. ring.
Qed.

Lemma rev_two : forall (l : list Q) z y r, rev l = z :: y :: r ->
  2 <= length l /\ nth (length l - 1) l 0%Q = z /\ nth (length l - 2) l 0%Q = y.
Proof.
  intros l z y r H. assert (A : l = rev r ++ [y; z]).
  { rewrite <- (rev_involutive l), H. cbn. rewrite <- app_assoc. reflexivity. }
  rewrite A, app_length. cbn [length]. split; [lia|]. split.
  - rewrite app_nth2 by lia. replace (_ - _) with 1 by lia. reflexivity.
  - rewrite app_nth2 by lia. replace (_ - _) with 0 by lia. reflexivity.
Qed.

Lemma equidistant_end_last : forall l s d n x, equidistant l s d n -> end_last l = Some x ->
  (x == s + inject_Z (Z.of_nat n) * d)%Q /\ 2 <= n.
Proof.
  intros l s d n x EQ H. pose proof EQ as [L E].
  unfold end_last in H. destruct (rev l) as [|z [|y r]] eqn:R; try discriminate.
  injection H as <-. apply rev_two in R. destruct R as (G & Z & Y). rewrite L in *.
  pose proof (E (n - 1) ltac:(lia)) as E1. pose proof (E (n - 2) ltac:(lia)) as E2.
  rewrite Z in E1. rewrite Y in E2. rewrite E1, E2. split; [|lia].
  replace (Z.of_nat n) with (Z.of_nat (n - 1) + 1)%Z by lia.
  replace (Z.of_nat (n - 2)) with (Z.of_nat (n - 1) - 1)%Z by lia.
  unfold Z.sub. rewrite !inject_Z_plus. change (inject_Z (-(1))) with (-(1))%Q. ring.
Qed.

Lemma equidistant_same : forall a b s s' d d' n,
  equidistant a s d n -> equidistant b s' d' n -> (s == s')%Q -> (2 <= n -> (d == d')%Q) ->
  same_points a b.
Proof.
  intros a b s s' d d' n [LA EA] [LB EB] S D.
  assert (P : forall i, i < n -> (nth i a 0 == nth i b 0)%Q).
  { intros i Hi. rewrite (EA i Hi), (EB i Hi), S.
    destruct (le_lt_dec 2 n) as [G|G]; [rewrite (D G); reflexivity|].
    replace i with 0 by lia. cbn. ring. }
  clear EA EB D S. revert b n LA LB P. induction a as [|x a IH]; intros b n LA LB P.
  - destruct b; [constructor|cbn in *; subst; discriminate].
  - destruct b as [|y b]; [cbn in *; subst; discriminate|].
    cbn in LA, LB. destruct n as [|n]; [discriminate|].
    constructor; [apply (P 0); lia|]. apply (IH b n); [lia|lia|].
    intros i Hi. apply (P (S i)). lia.
Qed.

(** ** Time grids *)
Lemma flat_many0 : forall k,
  many [given (k_dt k); given (k_samplerate k); given (k_num_t k); given (k_t0 k); given (k_t1 k)]
    =? 0 = true <->
  k_dt k = None /\ k_samplerate k = None /\ k_num_t k = None /\ k_t0 k = None /\ k_t1 k = None.
Proof.
  intros k. destruct (k_dt k), (k_samplerate k), (k_num_t k), (k_t0 k), (k_t1 k); cbn;
    intuition discriminate.
Qed.

Lemma conflict_pair : forall k g a b,
  In g groups -> In a g -> In b g -> a <> b -> is_given k a -> is_given k b -> conflict k.
Proof. intros k g a b. intros. exists g, a, b. auto 10. Qed.

(** [num_t] given: the time array is not given and not t1. *)
Lemma num_t_alone : forall d k n, checks d k = Ok tt -> k_num_t k = Some n ->
  k_t k = None /\ k_t1 k = None.
Proof.
  intros d k n C N. apply checks_Ok in C. destruct C as [C _].
  assert (G : is_given k Anum_t) by (cbn; congruence).
  split.
  - destruct (k_t k) as [t|] eqn:E; [exfalso|reflexivity].
    apply C. apply (@conflict_pair k [At1; Anum_t; At] Anum_t At); cbn; auto; congruence.
  - destruct (k_t1 k) as [t|] eqn:E; [exfalso|reflexivity].
    apply C. apply (@conflict_pair k [At1; Anum_t; At] Anum_t At1); cbn; auto; congruence.
Qed.

Lemma time_num_t : forall d k n t', checks d k = Ok tt -> k_num_t k = Some n ->
  time_grid d k = Ok t' ->
  exists dt, (match k_samplerate k with
              | Some s => ~ (s == 0)%Q /\ dt = (1 / s)%Q
              | None => dt = get (k_dt k) (d_dt d) end) /\
    linspace (get (k_t0 k) (d_t0 d)) (get (k_t0 k) (d_t0 d) + inject_Z n * dt) n = Ok t'.
Proof.
  intros d k n t' C N H. destruct (num_t_alone C N) as [T _].
  unfold time_grid in H. rewrite T in H. cbn [given orb] in H.
  destruct (many _ =? 0) eqn:M; [apply flat_many0 in M; destruct M as (_ & _ & M & _); congruence|].
  ok H dt Hdt. rewrite N in H. exists dt. split; [|exact H].
  destruct (k_samplerate k); [apply pydiv_Ok in Hdt; exact Hdt|injection Hdt; auto].
Qed.

Lemma time_t1 : forall d k t', k_t k = None -> k_num_t k = None ->
  (k_dt k <> None \/ k_samplerate k <> None \/ k_t0 k <> None \/ k_t1 k <> None) ->
  time_grid d k = Ok t' ->
  exists dt, (match k_samplerate k with
              | Some s => ~ (s == 0)%Q /\ dt = (1 / s)%Q
              | None => dt = get (k_dt k) (d_dt d) end) /\
    arange (get (k_t0 k) (d_t0 d)) (get (k_t1 k) (d_t1 d)) dt = Ok t'.
Proof.
  intros d k t' T N G H. unfold time_grid in H. rewrite T in H. cbn [given orb] in H.
  destruct (many _ =? 0) eqn:M; [apply flat_many0 in M; intuition congruence|].
  ok H dt Hdt. rewrite N in H. exists dt. split; [|exact H].
  destruct (k_samplerate k); [apply pydiv_Ok in Hdt; exact Hdt|injection Hdt; auto].
Qed.

(** ** Equality *)
Lemma oeqb_iff : forall a b, oeqb a b = true <->
  match a, b with Some x, Some y => (x == y)%Q | None, None => True | _, _ => False end.
Proof.
  intros [x|] [y|]; cbn; try (split; [discriminate|contradiction]).
  - apply Qeq_bool_iff.
  - split; auto.
Qed.

Lemma oeqb_refl : forall a, oeqb a a = true.
Proof. intros [x|]; cbn; [apply Qeq_bool_refl|reflexivity]. Qed.
Lemma oeqb_sym : forall a b, oeqb a b = oeqb b a.
Proof.
  intros [x|] [y|]; cbn; try reflexivity.
  destruct (Qeq_bool x y) eqn:E; symmetry.
  - apply Qeq_bool_sym. exact E.
  - destruct (Qeq_bool y x) eqn:F; [apply Qeq_bool_sym in F; congruence|reflexivity].
Qed.
Lemma oeqb_trans : forall a b c, oeqb a b = true -> oeqb b c = true -> oeqb a c = true.
Proof.
  intros [x|] [y|] [z|]; cbn; try discriminate; auto. intros H G.
  apply (Qeq_bool_trans _ _ _ H G).
Qed.
Lemma Qeq_bool_comm : forall x y, Qeq_bool x y = Qeq_bool y x.
Proof. intros x y. apply (oeqb_sym (Some x) (Some y)). Qed.

Lemma env_eqb_refl : forall a, env_eqb a a = true.
Proof.
  intros a. unfold env_eqb.
  rewrite String.eqb_refl, !Qeq_bool_refl, !oeqb_refl, !Nat.eqb_refl, !Bool.eqb_reflx. reflexivity.
Qed.

Lemma beqb_sym : forall a b, Bool.eqb a b = Bool.eqb b a.
Proof. intros [] []; reflexivity. Qed.

Lemma env_eqb_sym : forall a b, env_eqb a b = env_eqb b a.
Proof.
  intros a b. unfold env_eqb.
  rewrite (String.eqb_sym (n_name a)), (Qeq_bool_comm (n_t0 a)), (oeqb_sym (n_t1 a)),
    (Nat.eqb_sym (n_num_t a)), (oeqb_sym (n_dt a)), (oeqb_sym (n_samplerate a)),
    (oeqb_sym (n_bitrate a)), (oeqb_sym (n_bitlength a)), (Qeq_bool_comm (n_wl0 a)),
    (oeqb_sym (n_wl1 a)), (Nat.eqb_sym (n_num_wl a)), (oeqb_sym (n_dwl a)),
    (Qeq_bool_comm (n_f0 a)), (oeqb_sym (n_f1 a)), (Nat.eqb_sym (n_num_f a)),
    (oeqb_sym (n_df a)), (Qeq_bool_comm (n_c a)), (beqb_sym (n_freqdomain a)),
    (beqb_sym (n_grad a)). reflexivity.
Qed.

Lemma env_eqb_trans : forall a b c, env_eqb a b = true -> env_eqb b c = true -> env_eqb a c = true.
Proof.
  intros a b c H G. unfold env_eqb in *. rewrite !andb_true_iff in *.
  repeat match goal with X : _ /\ _ |- _ => destruct X end.
  repeat split;
  try (eapply Qeq_bool_trans; eassumption);
  try (eapply oeqb_trans; eassumption);
  repeat match goal with
  | X : String.eqb _ _ = true |- _ => apply String.eqb_eq in X
  | X : Nat.eqb _ _ = true |- _ => apply Nat.eqb_eq in X
  | X : Bool.eqb _ _ = true |- _ => apply Bool.eqb_prop in X
  end;
  first [apply String.eqb_eq; congruence|apply Nat.eqb_eq; congruence
        |apply Bool.eqb_true_iff; congruence].
Qed.
