(** Amplifiers as parts of built networks; phases; the Agrawal model. *)
From Coq Require Import QArith Reals Lia Lra Psatz.
From Verif Require Import Base PyStr NetModel NetSpec NetProofs WireProofs SimModel SimAlg SimSpec CompModel ActModel ActSpec ActProofs SoaProofs.
Set Implicit Arguments.
Unset Strict Implicit.

Section Build.
Variables (X D : Type) (x0 : X) (d0 : D).
Local Open Scope nat_scope.

Lemma block_mat_row {A} (sel : buf X D -> nat -> nat -> A) d pre n (c : buf X D) post i j : i < b_np c ->
  block_mat sel d (pre ++ (n, c) :: post) (ports_before pre + i) j =
  if (ports_before pre <=? j) && (j <? ports_before pre + b_np c) then sel c i (j - ports_before pre) else d.
Proof.
  intros Hi. revert j. induction pre as [|[m c'] pre IH]; intros j.
  - change (ports_before []) with 0. cbn [app block_mat Nat.add Nat.leb andb].
    destruct (Nat.ltb_spec i (b_np c)); [|lia]. destruct (Nat.ltb_spec j (b_np c)).
    + rewrite Nat.sub_0_r. reflexivity.
    + reflexivity.
  - cbn [app block_mat]. rewrite ports_before_cons.
    destruct (Nat.ltb_spec (b_np c' + ports_before pre + i) (b_np c')); [lia|]. cbn [andb orb].
    destruct (Nat.ltb_spec j (b_np c')).
    + cbn [andb orb]. destruct (Nat.leb_spec (b_np c' + ports_before pre) j); [lia|]. reflexivity.
    + cbn [andb orb]. replace (b_np c' + ports_before pre + i - b_np c') with (ports_before pre + i) by lia. rewrite IH.
      destruct (Nat.leb_spec (ports_before pre) (j - b_np c')), (Nat.leb_spec (b_np c' + ports_before pre) j); try lia; cbn [andb]; auto.
      destruct (Nat.ltb_spec (j - b_np c') (ports_before pre + b_np c)), (Nat.ltb_spec j (b_np c' + ports_before pre + b_np c)); try lia; auto.
      all: replace (j - b_np c' - ports_before pre) with (j - (b_np c' + ports_before pre)) by lia; reflexivity.
Qed.

(** Components of a network and what they do match. *)
Definition matches K (nb : string * net K) (c : acomp (nat -> nat -> K * K)) : Prop :=
  a_ports c = map (fun i => (b_src (snd nb) i, b_act (snd nb) i)) (seq 0 (b_np (snd nb))).

Lemma built_ports K (y0 : nat -> K * K) (q0 : Q) (cs : list (string * net K)) acs conns b :
  net_buf y0 q0 cs conns = Ok b -> Forall2 (@matches K) cs acs -> same_ports b (Nested acs).
Proof.
  intros H F. destruct (net_buf_inv H) as (_ & _ & Hn & Hs & _ & Ha & _).
  unfold same_ports. rewrite Hn, Hs, Ha. clear H Hn Hs Ha. unfold total_ports.
  induction F as [|[n c] ac cs acs M F IH]; [reflexivity|].
  cbn [map list_sum a_ports flat_map block_vec fold_right] in *. rewrite seq_app, map_app. f_equal.
  - rewrite M. apply map_ext_in. intros i Ii. apply in_seq in Ii. cbn [snd] in *.
    destruct (Nat.ltb_spec i (b_np c)); [reflexivity|lia].
  - rewrite IH. cbn [snd]. rewrite (seq_shift_map (0 + b_np c)), map_map. apply map_ext_in. intros i Ii.
    destruct (Nat.ltb_spec (0 + b_np c + i) (b_np c)); [lia|].
    replace (0 + b_np c + i - b_np c) with i by lia. reflexivity.
Qed.
End Build.

(** A built network with an amplifier: nothing can be wired to its inner port. *)
Lemma built_amplifier (cs pre post : list (string * net R)) n delay conns b :
  NoDup (map fst cs) -> orders_ok cs -> cs = pre ++ (n, base_soa delay) :: post ->
  net_buf (fun _ => (0, 0)%R) 0%Q cs conns = Ok b -> amplifier_at b (ports_before pre).
Proof.
  intros Nd Oo E H. destruct (net_buf_inv H) as (_ & _ & Hn & Hs & _ & Ha & HS & HD).
  assert (Loc : forall i, (i < 3)%nat -> located cs (ports_before pre + i) n (base_soa delay) i).
  { intros i Li. exists pre, post. auto. }
  split.
  - rewrite Hn, E. match goal with |- context [total_ports ?c] => change (total_ports c) with (ports_before c) end.
    rewrite ports_before_app, ports_before_cons. cbn [base_soa component b_np]. lia.
  - intros i Li. rewrite Hs, Ha, HS, HD. rewrite !(block_vec_located _ _ (Loc i Li)).
    split; [reflexivity|]. split; [reflexivity|]. split.
    + intros j w Lj. rewrite E, block_mat_row by exact Li. cbn [base_soa component b_np b_S].
      destruct (Nat.leb_spec (ports_before pre) j); cbn [andb].
      2:{ destruct (Nat.eqb_spec j (ports_before pre + i)); [lia|reflexivity]. }
      destruct (Nat.ltb_spec j (ports_before pre + 3)).
      2:{ destruct (Nat.eqb_spec j (ports_before pre + i)); [lia|reflexivity]. }
      assert (exists k, j = ports_before pre + k /\ k < 3)%nat as (k & -> & Lk) by (exists (j - ports_before pre)%nat; lia).
      replace (ports_before pre + k - ports_before pre)%nat with k by lia.
      replace (ports_before pre + k =? ports_before pre + i)%nat with (k =? i)%nat
        by (destruct (Nat.eqb_spec k i), (Nat.eqb_spec (ports_before pre + k) (ports_before pre + i)); lia).
      destruct i as [|[|[|i]]]; [| | |lia]; (destruct k as [|[|[|k]]]; [| | |lia]); reflexivity.
    + intros ->. split; [reflexivity|]. intros j Lj.
      apply Bool.eq_true_iff_eq. rewrite (net_buf_C Nd H), Nat.eqb_eq. split.
      * intros [In|(conn & _ & Hw)].
        -- destruct In as (pre' & n' & c' & post' & i' & j' & E' & Li' & Lj' & Cij & Ei & ->).
           destruct (@located_unique _ _ cs pre n (base_soa delay) post 1 pre' n' c' post' i' E E') as (-> & -> & <- & -> & <-); auto.
           f_equal. cbn in Cij. apply Nat.eqb_eq in Cij. exact Cij.
        -- exfalso. destruct (@wires_located _ _ cs conn (ports_before pre + 1) j Oo Hw) as (n' & c' & q & Lq & U).
           destruct Lq as (pre' & post' & E' & Eq & Lq).
           destruct (@located_unique _ _ cs pre n (base_soa delay) post 1 pre' n' c' post' q E E') as (_ & _ & <- & _ & <-); auto.
           destruct (U 1%nat ltac:(cbn; lia)) as [U1 _]. discriminate.
      * intros ->. left. exists pre, n, (base_soa delay), post, 1%nat, 1%nat. cbn. repeat split; auto; lia.
Qed.

Local Open Scope R_scope.

(** *** Phases *)
Lemma equal_gain dt rate a : (forall t h x, fst (rate t h x) = snd (rate t h x)) ->
  forall n, fst (gain dt rate a n) = snd (gain dt rate a n).
Proof. intros E n. induction n as [|n IH]; [reflexivity|]. cbn [gain fst snd]. rewrite IH, E. reflexivity. Qed.
Lemma blind_gain dt rate a a' : (forall t h x x', rate t h x = rate t h x') ->
  forall n, gain dt rate a n = gain dt rate a' n.
Proof. intros E n. induction n as [|n IH]; [reflexivity|]. cbn [gain]. rewrite IH, (E n _ (a n) (a' n)). reflexivity. Qed.

(** *** Agrawal *)
Section Agrawal.
Variables (p : agrawal) (dt : R) (a : nat -> R * R).
Notation h := (gain dt (fun _ => agrawal_dhdt p) a).
Hypothesis Htc : 0 < ag_tc p.
Hypothesis Hdt : 0 < dt.

Lemma agrawal_im n : snd (h n) = 0.
Proof. induction n as [|n IH]; [reflexivity|]. cbn [gain snd]. rewrite IH. cbn. ring. Qed.

Lemma agrawal_step n : fst (h (S n)) = fst (h n) + dt * (1 / ag_tc p *
  ((ag_g0L p - fst (h n)) - ((fst (a n) ^ 2 + snd (a n) ^ 2) / ag_Psat p) * (exp (fst (h n)) - 1))).
Proof. reflexivity. Qed.

Lemma agrawal_dark n : (forall t, a t = (0, 0)) -> fst (h n) = ag_g0L p * (1 - (1 - dt / ag_tc p) ^ n).
Proof.
  intros Z. induction n as [|n IH]; [cbn; ring|]. rewrite agrawal_step, IH, Z. cbn [fst snd].
  replace ((0 ^ 2 + 0 ^ 2) / ag_Psat p) with 0 by (unfold Rdiv; ring).
  cbn [pow]. generalize ((1 - dt / ag_tc p) ^ n). intros r. field. lra.
Qed.

Lemma agrawal_bounds Pmax : 0 < ag_Psat p -> 0 <= ag_g0L p ->
  (forall t, fst (a t) ^ 2 + snd (a t) ^ 2 <= Pmax) ->
  dt / ag_tc p * (1 + Pmax / ag_Psat p * exp (ag_g0L p)) <= 1 ->
  forall n, 0 <= fst (h n) <= ag_g0L p.
Proof.
  intros HP HG HM HD. induction n as [|n IH]; [cbn; lra|].
  rewrite agrawal_step. set (x := fst (h n)) in *.
  set (P := fst (a n) ^ 2 + snd (a n) ^ 2).
  assert (P0 : 0 <= P) by (unfold P; nra).
  set (d := dt / ag_tc p) in *. assert (D0 : 0 < d) by (apply Rdiv_lt_0_compat; auto).
  set (q := P / ag_Psat p). set (Q := Pmax / ag_Psat p) in *.
  assert (q0 : 0 <= q) by (apply Rmult_le_pos; [auto|left; apply Rinv_0_lt_compat; auto]).
  assert (qQ : q <= Q).
  { unfold q, Q. apply Rmult_le_compat_r; [left; apply Rinv_0_lt_compat; auto|apply HM]. }
  replace (dt * (1 / ag_tc p * (ag_g0L p - x - q * (exp x - 1)))) with (d * (ag_g0L p - x - q * (exp x - 1)))
    by (unfold d; field; lra).
  set (G := ag_g0L p) in *.
  assert (E1 : 0 <= exp x - 1) by (pose proof (exp_ineq1_le x); lra).
  assert (E2 : exp x - 1 <= x * exp G).
  { assert (exp x <= exp G) by (destruct (Rle_lt_or_eq_dec x G) as [L|L]; [lra|left; apply exp_increasing; auto|rewrite L; lra]).
    assert (exp x - 1 <= x * exp x); [|nra].
    pose proof (exp_ineq1_le (- x)) as I. rewrite exp_Ropp in I.
    pose proof (exp_pos x) as X0.
    assert (exp x * (1 + - x) <= exp x * / exp x) by (apply Rmult_le_compat_l; lra).
    rewrite Rinv_r in H0 by lra. lra. }
  assert (E3 : q * (exp x - 1) <= Q * (x * exp G)) by (apply Rmult_le_compat; auto; lra).
  assert (E4 : 0 <= q * (exp x - 1)) by (apply Rmult_le_pos; auto).
  assert (X0 : 0 < exp G) by apply exp_pos.
  assert (D1 : d <= 1).
  { assert (0 <= d * (Q * exp G)); [|lra]. apply Rmult_le_pos; [lra|]. apply Rmult_le_pos; lra. }
  split.
  - assert (d * (q * (exp x - 1)) <= d * (Q * (x * exp G))) by (apply Rmult_le_compat_l; lra).
    assert (x * (d * (1 + Q * exp G)) <= x * 1) by (apply Rmult_le_compat_l; lra).
    assert (0 <= d * G) by (apply Rmult_le_pos; lra). lra.
  - assert (0 <= (1 - d) * (G - x)) by (apply Rmult_le_pos; lra).
    assert (0 <= d * (q * (exp x - 1))) by (apply Rmult_le_pos; lra). lra.
Qed.
End Agrawal.
