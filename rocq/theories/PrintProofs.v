(** Printed numbers: proofs. *)
From Coq Require Import QArith Qabs Qround Qpower Lqa Lia.
From Verif Require Import Base PyStr PyStrProofs EnvModel EnvKwModel PrintModel PrintSpec.
Set Implicit Arguments.
Unset Strict Implicit.
Local Open Scope list_scope.

(** *** Powers of ten *)
Lemma ten_pos e : (0 < ten e)%Q.
Proof. apply Qpower_0_lt. reflexivity. Qed.
Lemma ten_nz e : ~ (ten e == 0)%Q.
Proof. intros H. pose proof (ten_pos e). rewrite H in *. now apply (Qlt_irrefl 0). Qed.
Lemma ten_plus a b : (ten (a + b) == ten a * ten b)%Q.
Proof. apply Qpower_plus. discriminate. Qed.
Lemma ten_le a b : (a <= b)%Z -> (ten a <= ten b)%Q.
Proof. intros H. apply Qpower_le_compat_l; [exact H|]. discriminate. Qed.
Lemma ten_lt_inv a b : (ten a < ten b)%Q -> (a < b)%Z.
Proof. intros H. apply Qpower_lt_compat_l_inv in H; [exact H|]. reflexivity. Qed.
Lemma ten_Z n : (0 <= n)%Z -> (inject_Z (10 ^ n) == ten n)%Q.
Proof. intros H. apply Zpower_Qpower, H. Qed.

(** *** Number of digits *)
Lemma dec_aux_length fuel n acc : (n < 2 ^ N.of_nat fuel)%N -> (0 < n)%N ->
  exists k, String.length (dec_aux fuel n acc) = (S k + String.length acc)%nat /\ (10 ^ N.of_nat k <= n < 10 ^ N.of_nat (S k))%N.
Proof.
  revert n acc. induction fuel as [|f IH]; intros n acc Hn Hp.
  - change (N.of_nat 0) with 0%N in Hn. rewrite N.pow_0_r in Hn. lia.
  - cbn [dec_aux]. assert (Hm : (n mod 10 < 10)%N) by (apply N.mod_lt; discriminate).
    assert (Hdm : n = (10 * (n / 10) + n mod 10)%N) by (apply N.div_mod; discriminate).
    destruct (N.eqb_spec (n / 10) 0) as [E|E].
    + exists 0%nat. split; [reflexivity|]. cbn. lia.
    + rewrite Nat2N.inj_succ, N.pow_succ_r' in Hn.
      destruct (IH (n / 10)%N (String (digit_char (n mod 10)) acc)) as (k & L & B); [|lia|].
      { apply N.div_lt_upper_bound; [discriminate|]. lia. }
      exists (S k). rewrite L. cbn [String.length]. split; [lia|].
      rewrite (Nat2N.inj_succ (S k)), !(Nat2N.inj_succ k), !N.pow_succ_r' in *. lia.
Qed.

Lemma ndigits_spec n : (0 < n)%Z -> (1 <= ndigits n)%Z /\ (10 ^ (ndigits n - 1) <= n < 10 ^ ndigits n)%Z.
Proof.
  intros H. unfold ndigits, dec.
  destruct (@dec_aux_length (S (N.size_nat (Z.to_N n))) (Z.to_N n) "" (size_bound _)) as (k & L & B); [lia|].
  rewrite L. cbn [String.length]. split; [lia|].
  replace (Z.of_nat (S k + 0) - 1)%Z with (Z.of_nat k) by lia. replace (S k + 0)%nat with (S k) by lia.
  assert (P : forall j, Z.of_N (10 ^ N.of_nat j) = (10 ^ Z.of_nat j)%Z).
  { intros j. rewrite N2Z.inj_pow. f_equal. apply nat_N_Z. }
  rewrite <- !P. lia.
Qed.

Lemma ndigits_4 m : (1000 <= m <= 9999)%Z -> ndigits m = 4%Z.
Proof.
  intros H. destruct (@ndigits_spec m) as [D B]; [lia|].
  destruct (Z.lt_trichotomy (ndigits m) 4) as [L|[L|L]]; [|exact L|]; exfalso.
  - assert (10 ^ ndigits m <= 10 ^ 3)%Z by (apply Z.pow_le_mono_r; lia). lia.
  - assert (10 ^ 4 <= 10 ^ (ndigits m - 1))%Z by (apply Z.pow_le_mono_r; lia). lia.
Qed.

(** *** The exponent *)
Lemma expo_spec a : (0 < a)%Q -> (ten (expo a) <= a)%Q /\ (a < ten (expo a + 1))%Q.
Proof.
  intros Ha. assert (Hn : (0 < Qnum a)%Z) by (unfold Qlt in Ha; cbn in Ha; lia).
  destruct (ndigits_spec Hn) as [X1 [X2 X3]]. destruct (@ndigits_spec (QDen a)) as [Y1 [Y2 Y3]]; [lia|].
  unfold expo. set (x := ndigits (Qnum a)) in *. set (y := ndigits (QDen a)) in *.
  assert (Ea : (a * inject_Z (QDen a) == inject_Z (Qnum a))%Q).
  { unfold Qeq, Qmult, inject_Z. cbn. lia. }
  assert (Qd : (0 < inject_Z (QDen a))%Q) by (unfold Qlt; cbn; lia).
  assert (U : (a < ten (x - y + 1))%Q).
  { apply Qmult_lt_r with (inject_Z (QDen a)); [exact Qd|]. rewrite Ea.
    apply Qlt_le_trans with (ten x); [rewrite <- ten_Z by lia; rewrite <- Zlt_Qlt; exact X3|].
    replace (ten x) with (ten ((x - y + 1) + (y - 1))) by (f_equal; lia). rewrite ten_plus.
    apply Qmult_le_l; [apply ten_pos|]. rewrite <- ten_Z by lia. rewrite <- Zle_Qle. exact Y2. }
  assert (L : (ten (x - y - 1) <= a)%Q).
  { apply Qmult_le_r with (inject_Z (QDen a)); [exact Qd|]. rewrite Ea.
    apply Qle_trans with (ten (x - 1)); [|rewrite <- ten_Z by lia; rewrite <- Zle_Qle; exact X2].
    replace (ten (x - 1)) with (ten ((x - y - 1) + y)) by (f_equal; lia). rewrite ten_plus.
    apply Qmult_le_l; [apply ten_pos|]. rewrite <- ten_Z by lia. rewrite <- Zle_Qle. lia. }
  destruct (Qle_bool (ten (x - y)) a) eqn:E.
  - apply Qle_bool_iff in E. split; [exact E|exact U].
  - split; [exact L|]. replace (x - y - 1 + 1)%Z with (x - y)%Z by lia.
    apply Qnot_le_lt. intros H. apply Qle_bool_iff in H. congruence.
Qed.

Lemma expo_le a b : (0 < a)%Q -> (a <= b)%Q -> (expo a <= expo b)%Z.
Proof.
  intros Ha Hb. destruct (expo_spec Ha) as [A _]. destruct (@expo_spec b) as [_ B]; [lra|].
  assert (ten (expo a) < ten (expo b + 1))%Q by lra. apply ten_lt_inv in H. lia.
Qed.
Lemma expo_unique a e : (ten e <= a)%Q -> (a < ten (e + 1))%Q -> expo a = e.
Proof.
  intros L U. pose proof (ten_pos e) as P. destruct (@expo_spec a) as [A B]; [lra|].
  assert (ten (expo a) < ten (e + 1))%Q by lra. assert (ten e < ten (expo a + 1))%Q by lra.
  apply ten_lt_inv in H, H0. lia.
Qed.

(** *** Rounding *)
Lemma half_even_near a : (Qabs (inject_Z (half_even a) - a) <= 1 # 2)%Q.
Proof.
  unfold half_even. pose proof (Qfloor_le a) as L. pose proof (Qlt_floor a) as U.
  rewrite inject_Z_plus in U. change (inject_Z 1) with 1%Q in U.
  apply Qabs_Qle_condition. destruct (Qcompare_spec (a - inject_Z (Qfloor a)) (1 # 2)) as [E|E|E].
  - destruct (Z.even _); rewrite ?inject_Z_plus; change (inject_Z 1) with 1%Q; lra.
  - lra.
  - rewrite inject_Z_plus. change (inject_Z 1) with 1%Q. lra.
Qed.

Lemma half_even_Z m : half_even (inject_Z m) = m.
Proof.
  unfold half_even. rewrite Qfloor_Z. destruct (Qcompare_spec (inject_Z m - inject_Z m) (1 # 2)) as [E|E|E]; [|reflexivity|]; exfalso; lra.
Qed.

Lemma half_even_le a b : (a <= b)%Q -> (half_even a <= half_even b)%Z.
Proof.
  intros H. destruct (Z.le_gt_cases (half_even a) (half_even b)) as [L|L]; [exact L|exfalso].
  pose proof (@half_even_near a) as A. pose proof (@half_even_near b) as B. apply Qabs_Qle_condition in A, B.
  assert (C : (inject_Z (half_even b) + 1 <= inject_Z (half_even a))%Q).
  { change 1%Q with (inject_Z 1). rewrite <- inject_Z_plus, <- Zle_Qle. lia. }
  assert (E : (a == b)%Q) by lra.
  assert (F : Qfloor a = Qfloor b).
  { apply Z.le_antisymm; apply Qfloor_resp_le; rewrite E; apply Qle_refl. }
  unfold half_even in L. rewrite F in L.
  assert (CE : Qcompare (a - inject_Z (Qfloor b)) (1 # 2) = Qcompare (b - inject_Z (Qfloor b)) (1 # 2)).
  { rewrite E. reflexivity. }
  rewrite CE in L. lia.
Qed.

(** *** Four digits and an exponent *)
Definition worth (me : Z * Z) : Q := (inject_Z (fst me) * ten (snd me - 3))%Q.

Lemma sci_spec a : (0 < a)%Q ->
  (1000 <= fst (sci a) <= 9999)%Z /\ (worth (sci a) == inject_Z (half_even (a / ten (expo a - 3))) * ten (expo a - 3))%Q
  /\ (1000 <= half_even (a / ten (expo a - 3)) <= 10000)%Z.
Proof.
  intros Ha. destruct (expo_spec Ha) as [L U]. set (e := expo a) in *.
  pose proof (ten_pos (e - 3)) as P.
  assert (B : (1000 <= half_even (a / ten (e - 3)) <= 10000)%Z).
  { split.
    - rewrite <- (half_even_Z 1000). apply half_even_le. apply Qle_shift_div_l; [exact P|].
      replace (ten e) with (ten (3 + (e - 3))) in L by (f_equal; lia). rewrite ten_plus in L. exact L.
    - rewrite <- (half_even_Z 10000). apply half_even_le. apply Qle_shift_div_r; [exact P|].
      replace (ten (e + 1)) with (ten (4 + (e - 3))) in U by (f_equal; lia). rewrite ten_plus in U. apply Qlt_le_weak. exact U. }
  unfold sci. fold e. destruct (Z.eqb_spec (half_even (a / ten (e - 3))) 10000) as [E|E].
  - rewrite E. split; [cbn; lia|]. split; [|lia]. unfold worth. cbn [fst snd].
    replace (e + 1 - 3)%Z with (1 + (e - 3))%Z by lia. rewrite ten_plus. rewrite Qmult_assoc. reflexivity.
  - split; [cbn [fst]; lia|]. split; [reflexivity|exact B].
Qed.

Lemma sci_near a : (0 < a)%Q -> (Qabs (worth (sci a) - a) <= a * (1 # 2000))%Q.
Proof.
  intros Ha. destruct (sci_spec Ha) as (_ & -> & _). destruct (expo_spec Ha) as [L _].
  pose proof (ten_pos (expo a - 3)) as P. set (p := ten (expo a - 3)) in *.
  assert (Lp : (1000 * p <= a)%Q).
  { unfold p. replace (ten (expo a)) with (ten (3 + (expo a - 3))) in L by (f_equal; lia). rewrite ten_plus in L. exact L. }
  pose proof (@half_even_near (a / p)) as N. apply Qabs_Qle_condition in N. destruct N as [N1 N2].
  assert (E : (a == (a / p) * p)%Q) by (field; intros Z; rewrite Z in P; now apply (Qlt_irrefl 0)).
  set (h := inject_Z (half_even (a / p))) in *. set (x := (a / p)%Q) in *.
  assert (E2 : (h * p - a == (h - x) * p)%Q) by (rewrite E; ring).
  rewrite E2. apply Qabs_Qle_condition.
  assert (M1 : (- (1 # 2) * p <= (h - x) * p)%Q) by (apply Qmult_le_compat_r; lra).
  assert (M2 : ((h - x) * p <= (1 # 2) * p)%Q) by (apply Qmult_le_compat_r; lra).
  lra.
Qed.

Lemma sci_le a b : (0 < a)%Q -> (a <= b)%Q -> (worth (sci a) <= worth (sci b))%Q.
Proof.
  intros Ha Hab. assert (Hb : (0 < b)%Q) by lra.
  destruct (sci_spec Ha) as (_ & -> & A). destruct (sci_spec Hb) as (_ & -> & B).
  pose proof (expo_le Ha Hab) as E. destruct (Z.eq_dec (expo a) (expo b)) as [EE|NE].
  - rewrite EE. pose proof (ten_pos (expo b - 3)) as P. apply Qmult_le_compat_r; [|lra].
    rewrite <- Zle_Qle. apply half_even_le. apply Qle_shift_div_l; [exact P|]. rewrite EE in *.
    unfold Qdiv. rewrite <- Qmult_assoc. rewrite (Qmult_comm (/ _)), Qmult_inv_r, Qmult_1_r; [exact Hab|apply ten_nz].
  - apply Qle_trans with (ten (expo a + 1)).
    + replace (ten (expo a + 1)) with (ten (4 + (expo a - 3))) by (f_equal; lia). rewrite ten_plus.
      pose proof (ten_pos (expo a - 3)). apply Qmult_le_compat_r; [|lra]. change (ten 4) with (inject_Z 10000). rewrite <- Zle_Qle. lia.
    + apply Qle_trans with (ten (expo b)); [apply ten_le; lia|].
      replace (ten (expo b)) with (ten (3 + (expo b - 3))) by (f_equal; lia). rewrite ten_plus.
      pose proof (ten_pos (expo b - 3)). apply Qmult_le_compat_r; [|lra]. change (ten 3) with (inject_Z 1000). rewrite <- Zle_Qle. lia.
Qed.

Lemma sci_exact a m e : (1000 <= m <= 9999)%Z -> (a == inject_Z m * ten (e - 3))%Q -> sci a = (m, e).
Proof.
  intros Hm E. pose proof (ten_pos (e - 3)) as P.
  assert (X : expo a = e).
  { apply expo_unique; rewrite E.
    - replace (ten e) with (ten (3 + (e - 3))) by (f_equal; lia). rewrite ten_plus. apply Qmult_le_compat_r; [|lra].
      change (ten 3) with (inject_Z 1000). rewrite <- Zle_Qle. lia.
    - replace (ten (e + 1)) with (ten (4 + (e - 3))) by (f_equal; lia). rewrite ten_plus. apply Qmult_lt_r; [exact P|].
      change (ten 4) with (inject_Z 10000). rewrite <- Zlt_Qlt. lia. }
  unfold sci. rewrite X.
  assert (H : half_even (a / ten (e - 3)) = m).
  { assert (Q : (a / ten (e - 3) == inject_Z m)%Q) by (rewrite E; field; apply ten_nz).
    rewrite <- (half_even_Z m). apply Z.le_antisymm; apply half_even_le; rewrite Q; apply Qle_refl. }
  rewrite H. destruct (Z.eqb_spec m 10000); [lia|reflexivity].
Qed.

Lemma sci_compat a b : (0 < a)%Q -> (a == b)%Q -> sci a = sci b.
Proof.
  intros Ha E. assert (X : expo a = expo b).
  { destruct (@expo_spec b) as [L U]; [lra|]. apply expo_unique; lra. }
  unfold sci. rewrite X. set (p := ten (expo b - 3)).
  replace (half_even (a / p)) with (half_even (b / p)); [reflexivity|].
  apply Z.le_antisymm; apply half_even_le; rewrite E; apply Qle_refl.
Qed.

(** *** Reading *)
Lemma digit_not_e d : (d < 10)%N -> Ascii.eqb (digit_char d) "e" = false /\ Ascii.eqb (digit_char d) "." = false.
Proof.
  intros H. assert (In d [0;1;2;3;4;5;6;7;8;9]%N) as Hin by (simpl; lia). simpl in Hin.
  repeat (destruct Hin as [<-|Hin]; [split; reflexivity|]). contradiction.
Qed.
Lemma cut_e_digits s t : all_digits s -> cut_at "e" (s ++ String "e" t) = Some (s, t).
Proof.
  induction s as [|c r IH]; intros H; [reflexivity|]. destruct H as [(d & Hd & ->) Hr].
  cbn [append cut_at]. rewrite (proj1 (digit_not_e Hd)), IH by exact Hr. reflexivity.
Qed.

Lemma exponent_read e : py_int (exponent e) = Some e.
Proof.
  unfold exponent. set (d := dec (Z.abs_N e)).
  assert (Dd : all_digits d) by apply dec_digits. assert (Dv : dval d 0 = Z.abs_N e) by apply dec_val.
  assert (Dn : d <> ""%string) by apply dec_nonempty.
  set (x := (if (Z.abs e <? 10)%Z then "0" ++ d else d)%string).
  assert (Xd : all_digits x).
  { unfold x. destruct (Z.abs e <? 10)%Z; [|exact Dd]. split; [|exact Dd]. exists 0%N. split; [reflexivity|reflexivity]. }
  assert (Xv : dval x 0 = Z.abs_N e) by (unfold x; destruct (Z.abs e <? 10)%Z; exact Dv).
  assert (Xn : x <> ""%string) by (unfold x; destruct (Z.abs e <? 10)%Z; [discriminate|exact Dn]).
  destruct (Z.ltb_spec e 0) as [L|L]; cbn [append]; unfold py_int.
  - rewrite strip_id by (split; [reflexivity|apply digits_no_space, Xd]).
    rewrite (pdig_digits _ Xd) by (left; exact Xn). rewrite Xv. cbn. f_equal. lia.
  - rewrite strip_id by (split; [reflexivity|apply digits_no_space, Xd]).
    rewrite (pdig_digits _ Xd) by (left; exact Xn). rewrite Xv. cbn. f_equal. lia.
Qed.

Lemma mantissa_read m e : (1000 <= m <= 9999)%Z ->
  exists v, read_pos (mantissa m ++ "e" ++ exponent e) = Some v /\ (v == worth (m, e))%Q.
Proof.
  intros Hm. unfold mantissa. pose proof (ndigits_4 Hm) as N. unfold ndigits in N.
  pose proof (dec_digits (Z.to_N m)) as D. pose proof (py_int_dec (Z.to_N m)) as I.
  destruct (dec (Z.to_N m)) as [|c r]; [cbn in N; lia|]. cbn [String.length] in N.
  destruct D as [(d & Hd & ->) Dr]. destruct (digit_not_e Hd) as [Ne Nd].
  eexists. unfold read_pos. cbn [append cut_at]. rewrite Ne. change (Ascii.eqb "." "e") with false. cbv iota.
  rewrite (cut_e_digits _ Dr). cbn [cut_at]. rewrite Nd. change (Ascii.eqb "." ".") with true. cbv iota.
  cbn [append]. rewrite I, exponent_read. split; [reflexivity|].
  unfold worth. cbn [fst snd]. replace (Z.of_N (Z.to_N m)) with m by lia.
  replace (Z.of_nat (String.length r)) with 3%Z by lia. reflexivity.
Qed.

Lemma mantissa_head m : (1000 <= m <= 9999)%Z -> exists c r, mantissa m = String c r /\ c <> "-"%char.
Proof.
  intros Hm. unfold mantissa. pose proof (ndigits_4 Hm) as N. unfold ndigits in N.
  pose proof (dec_digits (Z.to_N m)) as D. destruct (dec (Z.to_N m)) as [|c r]; [cbn in N; lia|].
  destruct D as [(d & Hd & ->) _]. exists (digit_char d), (String "." r). split; [reflexivity|]. apply (digit_char_props d Hd).
Qed.

(** What is printed stands for this number. *)
Definition printed (q : Q) : Q :=
  if Qeq_bool q 0 then 0 else if Qle_bool q 0 then - worth (sci (Qabs q)) else worth (sci (Qabs q)).

Lemma read_other c r : c <> "-"%char -> read (String c r) = read_pos (String c r).
Proof.
  intros H. destruct c as [b0 b1 b2 b3 b4 b5 b6 b7].
  destruct b0, b1, b2, b3, b4, b5, b6, b7; try reflexivity. exfalso. now apply H.
Qed.

Lemma fmt_read q : exists v, read (fmt q) = Some v /\ (v == printed q)%Q.
Proof.
  unfold fmt, printed. destruct (Qeq_bool q 0) eqn:Z; [eexists; split; reflexivity|].
  assert (P : (0 < Qabs q)%Q).
  { apply Qeq_bool_neq in Z. apply Qabs_case; intros H; apply Qle_lteq in H; destruct H as [H|H]; try lra; exfalso; apply Z; lra. }
  destruct (sci_spec P) as [M _]. destruct (sci (Qabs q)) as [m e]. cbn [fst] in M.
  destruct (mantissa_read e M) as (v & R & V). destruct (Qle_bool q 0).
  - assert (E : forall x, read ("-" ++ x) = match read_pos x with Some v => Some (- v)%Q | None => None end) by reflexivity.
    rewrite E, R. eexists. split; [reflexivity|]. rewrite V. reflexivity.
  - destruct (mantissa_head M) as (c & r & E & N). rewrite E in R |- *.
    exists v. split; [|exact V]. rewrite <- R. apply (@read_other c (r ++ "e" ++ exponent e)%string N).
Qed.

(** *** The nearest number with four digits *)
Lemma half_even_nearest x (m : Z) : (Qabs (inject_Z (half_even x) - x) <= Qabs (inject_Z m - x))%Q /\
  ((Qabs (inject_Z (half_even x) - x) == Qabs (inject_Z m - x))%Q -> m = half_even x \/ Z.even (half_even x) = true).
Proof.
  unfold half_even. pose proof (Qfloor_le x) as L. pose proof (Qlt_floor x) as U.
  rewrite inject_Z_plus in U. change (inject_Z 1) with 1%Q in U. set (f := Qfloor x) in *. clearbody f.
  assert (M : (inject_Z m <= inject_Z f \/ inject_Z f + 1 <= inject_Z m)%Q).
  { destruct (Z.le_gt_cases m f); [left; now rewrite <- Zle_Qle|right]. change 1%Q with (inject_Z 1). rewrite <- inject_Z_plus, <- Zle_Qle. lia. }
  assert (A1 : forall y, (y <= x)%Q -> (Qabs (y - x) == x - y)%Q) by (intros y Hy; rewrite Qabs_neg by lra; ring).
  assert (A2 : forall y, (x <= y)%Q -> (Qabs (y - x) == y - x)%Q) by (intros y Hy; rewrite Qabs_pos by lra; ring).
  assert (I : forall a b : Z, (inject_Z a == inject_Z b)%Q -> a = b) by (intros a b H; unfold Qeq in H; cbn in H; lia).
  assert (J : (inject_Z (f + 1) == inject_Z f + 1)%Q) by (rewrite inject_Z_plus; reflexivity).
  assert (B : (Qabs (inject_Z m - x) == x - inject_Z m /\ inject_Z m <= inject_Z f \/ Qabs (inject_Z m - x) == inject_Z m - x /\ inject_Z f + 1 <= inject_Z m)%Q).
  { destruct M as [M|M]; [left|right]; (split; [|exact M]); [apply A1|apply A2]; lra. }
  assert (Bf : (Qabs (inject_Z f - x) == x - inject_Z f)%Q) by (apply A1; lra).
  assert (Bg : (Qabs (inject_Z (f + 1) - x) == inject_Z f + 1 - x)%Q) by (rewrite A2 by lra; lra).
  assert (K : forall h : Z, ~ (inject_Z h == inject_Z m)%Q \/ m = h).
  { intros h. destruct (Z.eq_dec m h) as [E|E]; [now right|left]. intros X. apply I in X. lia. }
  destruct (Qcompare_spec (x - inject_Z f) (1 # 2)) as [E|E|E].
  - destruct (Z.even f) eqn:Ev.
    + split; [|auto]. destruct B as [[B B']|[B B']]; lra.
    + split; [destruct B as [[B B']|[B B']]; lra|]. intros _. right. rewrite Z.even_add, Ev. reflexivity.
  - split; [destruct B as [[B B']|[B B']]; lra|]. intros Q. left. destruct (K f) as [N|N]; [|exact N]. exfalso. apply N. destruct B as [[B B']|[B B']]; lra.
  - split; [destruct B as [[B B']|[B B']]; lra|]. intros Q. left. destruct (K (f + 1)%Z) as [N|N]; [|exact N]. exfalso. apply N. destruct B as [[B B']|[B B']]; lra.
Qed.

Lemma sci_four a : (0 < a)%Q -> four_digits (fst (sci a)) (worth (sci a)).
Proof. intros H. destruct (sci_spec H) as [B _]. split; [lia|]. exists (snd (sci a) - 3)%Z. reflexivity. Qed.

Lemma sci_nearest a m w : (0 < a)%Q -> four_digits m w ->
  (Qabs (worth (sci a) - a) <= Qabs (w - a))%Q /\
  ((Qabs (worth (sci a) - a) == Qabs (w - a))%Q -> (w == worth (sci a))%Q \/ Z.even (fst (sci a)) = true).
Proof.
  intros Ha (Hm & e' & Ew). pose proof (sci_near Ha) as Near.
  destruct (Z.lt_ge_cases m 0) as [Neg|Pos].
  { assert (W : (w < 0)%Q).
    { rewrite Ew. setoid_replace 0%Q with (0 * Qpower 10 e')%Q by ring. apply Qmult_lt_r; [apply (ten_pos e')|]. change 0%Q with (inject_Z 0). now rewrite <- Zlt_Qlt. }
    assert (X : (Qabs (w - a) == a - w)%Q) by (rewrite Qabs_neg by lra; ring). split; [lra|]. intros Q. exfalso. lra. }
  rewrite Z.abs_eq in Hm by exact Pos. clear Pos.
  destruct (sci_spec Ha) as (B & Wo & Bh). destruct (expo_spec Ha) as [L U].
  assert (Ev : Z.even (half_even (a / ten (expo a - 3))) = true -> Z.even (fst (sci a)) = true).
  { unfold sci. destruct (Z.eqb_spec (half_even (a / ten (expo a - 3))) 10000); cbn [fst]; auto. }
  rewrite Wo in *. set (p := ten (expo a - 3)) in *. pose proof (ten_pos (expo a - 3)) as P. fold p in P. set (h := half_even (a / p)) in *.
  assert (Ea : (a == (a / p) * p)%Q) by (field; intros Z; rewrite Z in P; now apply (Qlt_irrefl 0)).
  assert (Sc : forall k, (Qabs (inject_Z k * p - a) == Qabs (inject_Z k - a / p) * p)%Q).
  { intros k. setoid_replace (inject_Z k * p - a)%Q with ((inject_Z k - a / p) * p)%Q by (rewrite Ea at 1; ring).
    rewrite Qabs_Qmult. rewrite (Qabs_pos p) by lra. reflexivity. }
  assert (Gr : forall k, (Qabs (inject_Z h * p - a) <= Qabs (inject_Z k * p - a))%Q /\
    ((Qabs (inject_Z h * p - a) == Qabs (inject_Z k * p - a))%Q -> k = h \/ Z.even h = true)).
  { intros k. rewrite !Sc. destruct (half_even_nearest (a / p) k) as [N1 N2]. fold h in N1, N2. split; [apply Qmult_le_compat_r; lra|].
    intros Q. apply N2. apply Qmult_inj_r in Q; [exact Q|]. intros Z. lra. }
  assert (L' : (1000 * p <= a)%Q).
  { unfold p. replace (ten (expo a)) with (ten (3 + (expo a - 3))) in L by (f_equal; lia). rewrite ten_plus in L. exact L. }
  assert (U' : (a < 10000 * p)%Q).
  { unfold p. replace (ten (expo a + 1)) with (ten (4 + (expo a - 3))) in U by (f_equal; lia). rewrite ten_plus in U. exact U. }
  destruct (Gr 1000%Z) as [G1 _]. destruct (Gr 10000%Z) as [G2 T2].
  change (inject_Z 1000) with 1000%Q in G1. change (inject_Z 10000) with 10000%Q in G2, T2.
  assert (Q1 : (Qabs (1000 * p - a) == a - 1000 * p)%Q) by (rewrite Qabs_neg by lra; ring).
  assert (Q2 : (Qabs (10000 * p - a) == 10000 * p - a)%Q) by (rewrite Qabs_pos by lra; ring).
  destruct (Z.lt_trichotomy e' (expo a - 3)) as [C|[C|C]].
  - assert (W : (w < 1000 * p)%Q).
    { rewrite Ew. change (Qpower 10 e') with (ten e'). apply Qlt_le_trans with (10000 * ten e')%Q.
      - apply Qmult_lt_r; [apply ten_pos|]. change 10000%Q with (inject_Z 10000). rewrite <- Zlt_Qlt. lia.
      - apply Qle_trans with (10000 * ten (expo a - 3 - 1))%Q; [apply Qmult_le_l; [reflexivity|apply ten_le; lia]|].
        unfold p. replace (ten (expo a - 3)) with (ten (1 + (expo a - 3 - 1))) by (f_equal; lia). rewrite ten_plus. change (ten 1) with 10%Q. lra. }
    assert (Q3 : (Qabs (w - a) == a - w)%Q) by (rewrite Qabs_neg by lra; ring). split; [lra|]. intros Q. exfalso. lra.
  - subst e'. change (Qpower 10 (expo a - 3)) with p in Ew. destruct (Gr m) as [G T]. rewrite Ew. split; [exact G|].
    intros Q. destruct (T Q) as [->|T']; [now left|right; auto].
  - assert (W : (10000 * p <= w)%Q).
    { rewrite Ew. change (Qpower 10 e') with (ten e'). apply Qle_trans with (1000 * ten e')%Q.
      - apply Qle_trans with (1000 * ten (expo a - 3 + 1))%Q; [|apply Qmult_le_l; [reflexivity|apply ten_le; lia]].
        unfold p. rewrite ten_plus. change (ten 1) with 10%Q. lra.
      - apply Qmult_le_r; [apply ten_pos|]. change 1000%Q with (inject_Z 1000). rewrite <- Zle_Qle. lia. }
    assert (Q3 : (Qabs (w - a) == w - a)%Q) by (rewrite Qabs_pos by lra; ring). split; [lra|]. intros Q.
    assert (W' : (w == 10000 * p)%Q) by lra.
    destruct (T2 ltac:(lra)) as [T'|T']; [left; rewrite W', <- T'; reflexivity|right; auto].
Qed.

(** *** The layout *)
Lemma digits_all s : all_digits s -> digits s.
Proof.
  induction s as [|c r IH]; cbn; [auto|]. intros [(d & Hd & ->) Hr]. split; [|auto].
  exists (N.to_nat d). split; [lia|]. assert (In d [0;1;2;3;4;5;6;7;8;9]%N) as Hin by (simpl; lia). simpl in Hin.
  repeat (destruct Hin as [<-|Hin]; [reflexivity|]). contradiction.
Qed.

Lemma fmt_layout q : layout q (fmt q).
Proof.
  unfold fmt. destruct (Qeq_bool q 0) eqn:Z.
  { apply Qeq_bool_iff in Z. exists "0"%char, "0"%char, "0"%char, "0"%char, "+"%char, "00"%string, 0%Z.
    assert (D0 : is_digit "0") by (exists 0%nat; split; [lia|reflexivity]).
    split; [exact D0|]. split; [cbn; auto|]. split; [cbn; auto|]. split; [cbn; lia|]. split; [reflexivity|]. split; [left; split; [lia|reflexivity]|].
    split; [now left|]. assert (H : Qle_bool 0 q = true) by (apply Qle_bool_iff; lra). rewrite H. reflexivity. }
  apply Qeq_bool_neq in Z.
  assert (P : (0 < Qabs q)%Q).
  { apply Qabs_case; intros H; apply Qle_lteq in H; destruct H as [H|H]; try lra; exfalso; apply Z; lra. }
  destruct (sci_spec P) as [M _]. destruct (sci (Qabs q)) as [m e]. cbn [fst] in M.
  assert (Sg : (if Qle_bool q 0 then "-" else "")%string = (if Qle_bool 0 q then "" else "-")%string).
  { destruct (Qle_bool q 0) eqn:A, (Qle_bool 0 q) eqn:B; try reflexivity.
    - apply Qle_bool_iff in A, B. exfalso. apply Z. lra.
    - exfalso. assert (~ (q <= 0)%Q) by (rewrite <- Qle_bool_iff; congruence). assert (~ (0 <= q)%Q) by (rewrite <- Qle_bool_iff; congruence). lra. }
  rewrite Sg. clear Sg. pose proof (ndigits_4 M) as N4. unfold ndigits in N4. pose proof (dec_digits (Z.to_N m)) as Dm. unfold mantissa.
  destruct (dec (Z.to_N m)) as [|d1 [|d2 [|d3 [|d4 [|? ?]]]]]; try (cbn in N4; lia). apply digits_all in Dm. destruct Dm as [D1 D2].
  pose proof (exponent_read e) as Re. unfold exponent in Re |- *. set (d := dec (Z.abs_N e)) in *.
  assert (Dd : digits d) by apply digits_all, dec_digits.
  set (x := (if (Z.abs e <? 10)%Z then "0" ++ d else d)%string) in *.
  assert (Xs : digits x /\ (2 <= String.length x)%nat /\ (String.length x = 2%nat \/ (10 ^ (Z.of_nat (String.length x) - 1) <= Z.abs e)%Z)).
  { unfold x. destruct (Z.eq_dec e 0) as [->|Ne].
    - cbn. assert (D0 : is_digit "0") by (exists 0%nat; split; [lia|reflexivity]). auto.
    - destruct (@ndigits_spec (Z.abs e)) as [S1 [S2 S3]]; [lia|]. unfold ndigits in S1, S2, S3.
      replace (Z.to_N (Z.abs e)) with (Z.abs_N e) in S1, S2, S3 by lia. fold d in S1, S2, S3.
      destruct (Z.ltb_spec (Z.abs e) 10) as [Lt|Ge].
      + assert (E1 : Z.of_nat (String.length d) = 1%Z).
        { destruct (Z.eq_dec (Z.of_nat (String.length d)) 1) as [X|X]; [exact X|exfalso].
          assert (10 ^ 1 <= 10 ^ (Z.of_nat (String.length d) - 1))%Z by (apply Z.pow_le_mono_r; lia). lia. }
        cbn [append digits String.length]. assert (D0 : is_digit "0") by (exists 0%nat; split; [lia|reflexivity]).
        split; [auto|]. split; [lia|]. left. lia.
      + split; [exact Dd|]. split; [|right; exact S2].
        destruct (Z.eq_dec (Z.of_nat (String.length d)) 1) as [X|X]; [|lia]. rewrite X in S3. lia. }
  clearbody x. destruct Xs as (X1 & X2 & X3).
  exists d1, d2, d3, d4, (if (e <? 0)%Z then "-" else "+")%char, x, e. split; [exact D1|]. split; [exact D2|]. split; [exact X1|]. split; [exact X2|].
  split; [destruct (e <? 0)%Z; exact Re|]. split; [destruct (Z.ltb_spec e 0); auto|]. split; [exact X3|].
  destruct (e <? 0)%Z; reflexivity.
Qed.
