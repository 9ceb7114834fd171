(** Lemmas on the string operations: split/join, strip, int/decimal round trips. *)
From Verif Require Import Base PyStr.
From Coq Require Import ZifyBool ZifyNat ZifyN.
Local Open Scope string_scope.
Local Open Scope list_scope.

(** No colon in [s]. *)
Fixpoint no_colon (s : string) : Prop :=
  match s with
  | "" => True
  | String c r => c <> colon /\ no_colon r
  end.

Fixpoint no_space (s : string) : Prop :=
  match s with
  | "" => True
  | String c r => is_space c = false /\ no_space r
  end.

Lemma split_nonempty s : split_colon s <> [].
Proof.
  induction s as [|c r IH]; simpl; [discriminate|].
  destruct (Ascii.eqb c colon); [discriminate|].
  destruct (split_colon r); discriminate.
Qed.

Lemma split_no_colon s : no_colon s -> split_colon s = [s].
Proof.
  induction s as [|c r IH]; simpl; [reflexivity|].
  intros [Hc Hr]. rewrite (IH Hr).
  destruct (Ascii.eqb_spec c colon) as [E|E]; [contradiction|reflexivity].
Qed.

Lemma split_app s t : no_colon s ->
  split_colon (s ++ String colon t)%string = s :: split_colon t.
Proof.
  induction s as [|c r IH]; simpl; [reflexivity|].
  intros [Hc Hr]. rewrite (IH Hr).
  destruct (Ascii.eqb_spec c colon) as [E|E]; [contradiction|reflexivity].
Qed.

Lemma split_join parts : parts <> [] -> Forall no_colon parts ->
  split_colon (join_colon parts) = parts.
Proof.
  induction parts as [|p r IH]; [congruence|].
  intros _ H. inversion H as [|? ? Hp Hr]; subst.
  destruct r as [|q r]; [apply split_no_colon; assumption|].
  change (join_colon (p :: q :: r)) with (p ++ String colon (join_colon (q :: r)))%string.
  rewrite split_app by assumption. rewrite IH; [reflexivity|discriminate|assumption].
Qed.

Lemma split_parts_no_colon s : Forall no_colon (split_colon s).
Proof.
  induction s as [|c r IH]; simpl; [repeat constructor|].
  destruct (Ascii.eqb_spec c colon) as [E|E].
  - constructor; [exact I|assumption].
  - destruct (split_colon r) as [|h t] eqn:Hs; [now apply split_nonempty in Hs|].
    inversion IH; subst. constructor; [split; assumption|assumption].
Qed.

Lemma join_split s : join_colon (split_colon s) = s.
Proof.
  induction s as [|c r IH]; [reflexivity|]. cbn [split_colon].
  destruct (Ascii.eqb_spec c colon) as [E|E].
  - subst c. destruct (split_colon r) as [|h t] eqn:Hs; [now apply split_nonempty in Hs|].
    change (join_colon ("" :: h :: t)) with (String colon (join_colon (h :: t))). rewrite IH. reflexivity.
  - destruct (split_colon r) as [|h t] eqn:Hs; [now apply split_nonempty in Hs|].
    rewrite <- IH. destruct t; reflexivity.
Qed.

Lemma no_colon_app s t : no_colon s -> no_colon t -> no_colon (s ++ t)%string.
Proof. induction s as [|c r IH]; simpl; [tauto|]. intros [H1 H2] H3. split; auto. Qed.

Lemma no_space_app s t : no_space s -> no_space t -> no_space (s ++ t)%string.
Proof. induction s as [|c r IH]; simpl; [tauto|]. intros [H1 H2] H3. split; auto. Qed.

Lemma lstrip_id s : no_space s -> lstrip s = s.
Proof. destruct s as [|c r]; simpl; [reflexivity|]. intros [H _]. rewrite H. reflexivity. Qed.

Lemma rstrip_id s : no_space s -> rstrip s = s.
Proof.
  induction s as [|c r IH]; simpl; [reflexivity|]. intros [H Hr]. rewrite (IH Hr), H.
  destruct r; reflexivity.
Qed.

Lemma strip_id s : no_space s -> strip s = s.
Proof. intros H. unfold strip. rewrite (lstrip_id _ H). now apply rstrip_id. Qed.

Lemma rstrip_idem s : rstrip (rstrip s) = rstrip s.
Proof.
  induction s as [|c r IH]; [reflexivity|]. cbn [rstrip].
  destruct (rstrip r) as [|c' r'] eqn:E.
  - destruct (is_space c) eqn:Hc; [reflexivity|]. cbn. now rewrite Hc.
  - set (t := String c' r') in *. change (rstrip (String c t)) with
      (match rstrip t with "" => if is_space c then "" else String c "" | r' => String c r' end).
    rewrite IH. reflexivity.
Qed.

Lemma rstrip_lstrip_fixed s : lstrip s = s -> lstrip (rstrip s) = rstrip s.
Proof.
  destruct s as [|c r]; [reflexivity|]. cbn [lstrip rstrip]. intros H.
  destruct (is_space c) eqn:Hc.
  - exfalso. assert (Hl : forall s, (String.length (lstrip s) <= String.length s)%nat).
    { induction s as [|a s IHs]; cbn; [lia|]. destruct (is_space a); cbn; lia. }
    specialize (Hl r). rewrite H in Hl. cbn in Hl. lia.
  - destruct (rstrip r); cbn [lstrip]; rewrite Hc; reflexivity.
Qed.

Lemma lstrip_idem s : lstrip (lstrip s) = lstrip s.
Proof.
  induction s as [|c r IH]; [reflexivity|]. cbn [lstrip].
  destruct (is_space c) eqn:Hc; [exact IH|]. cbn [lstrip]. now rewrite Hc.
Qed.

Lemma strip_idem s : strip (strip s) = strip s.
Proof.
  unfold strip. rewrite rstrip_lstrip_fixed by apply lstrip_idem. apply rstrip_idem.
Qed.

Lemma lstrip_no_colon s : no_colon s -> no_colon (lstrip s).
Proof. induction s as [|c r IH]; simpl; [tauto|]. intros [H1 H2]. destruct (is_space c); simpl; auto. Qed.

Lemma rstrip_no_colon s : no_colon s -> no_colon (rstrip s).
Proof.
  induction s as [|c r IH]; simpl; [tauto|]. intros [H1 H2]. specialize (IH H2).
  destruct (rstrip r); [destruct (is_space c); simpl; auto|]. split; assumption.
Qed.

Lemma strip_no_colon s : no_colon s -> no_colon (strip s).
Proof. intros H. apply rstrip_no_colon, lstrip_no_colon, H. Qed.

(** A string containing a colon is not an int. *)
Lemma pdig_colon need s acc : ~ no_colon s -> pdig need s acc = None.
Proof.
  revert need acc. induction s as [|c r IH]; intros need acc H; [simpl in H; tauto|].
  cbn [pdig]. destruct (Ascii.eqb_spec c colon) as [E|E].
  - subst c. reflexivity.
  - assert (Hr : ~ no_colon r) by (intros Hr; apply H; split; assumption).
    destruct (digit_val c); [now apply IH|]. destruct (_ && _); [now apply IH|reflexivity].
Qed.

Lemma colon_not_space : is_space colon = false. Proof. reflexivity. Qed.

Lemma lstrip_has_colon s : ~ no_colon s -> ~ no_colon (lstrip s).
Proof.
  induction s as [|c r IH]; simpl; [tauto|]. intros H.
  destruct (is_space c) eqn:Hc; [|exact H]. apply IH. intros Hr. apply H. split; [|exact Hr].
  intros ->. now rewrite colon_not_space in Hc.
Qed.

Lemma rstrip_has_colon s : ~ no_colon s -> ~ no_colon (rstrip s).
Proof.
  induction s as [|c r IH]; simpl; [tauto|]. intros H.
  destruct (Ascii.eqb_spec c colon) as [E|E].
  - subst c. destruct (rstrip r); [rewrite colon_not_space|]; simpl; intros [Hn _]; congruence.
  - assert (Hr : ~ no_colon r) by (intros Hr; apply H; split; assumption).
    specialize (IH Hr). destruct (rstrip r) as [|c' r']; [simpl in IH; tauto|].
    intros [_ Hx]. exact (IH Hx).
Qed.

Lemma py_int_colon s : ~ no_colon s -> py_int s = None.
Proof.
  intros H. assert (H' : ~ no_colon (strip s)) by (apply rstrip_has_colon, lstrip_has_colon, H).
  unfold py_int. destruct (strip s) as [|c r]; [simpl in H'; tauto|].
  assert (Hp : forall c', c = c' -> c' <> colon -> ~ no_colon r).
  { intros c' -> Hc Hr. apply H'. split; assumption. }
  assert (Hd : pdig true (String c r) 0 = None) by (apply pdig_colon; exact H').
  destruct c as [b0 b1 b2 b3 b4 b5 b6 b7].
  destruct b0, b1, b2, b3, b4, b5, b6, b7; try (rewrite Hd; reflexivity);
    (rewrite pdig_colon; [reflexivity|]); eapply Hp; try reflexivity; discriminate.
Qed.

Lemma py_int_parts2 a b : py_int (a ++ String colon b)%string = None.
Proof.
  apply py_int_colon. induction a as [|c r IH]; simpl; [intros [H _]; congruence|tauto].
Qed.

(** Decimal output and parsing. *)
Lemma digit_val_char d : (d < 10)%N -> digit_val (digit_char d) = Some d.
Proof.
  intros H. assert (In d [0;1;2;3;4;5;6;7;8;9]%N) as Hin by (simpl; lia).
  simpl in Hin. repeat (destruct Hin as [<-|Hin]; [reflexivity|]). contradiction.
Qed.

Lemma digit_char_props d : (d < 10)%N ->
  digit_char d <> colon /\ is_space (digit_char d) = false /\ digit_char d <> "-"%char /\ digit_char d <> "+"%char.
Proof.
  intros H. assert (In d [0;1;2;3;4;5;6;7;8;9]%N) as Hin by (simpl; lia).
  simpl in Hin.
  repeat (destruct Hin as [<-|Hin]; [repeat split; try reflexivity; discriminate|]). contradiction.
Qed.

Fixpoint all_digits (s : string) : Prop :=
  match s with
  | "" => True
  | String c r => (exists d, (d < 10)%N /\ c = digit_char d) /\ all_digits r
  end.

Lemma dec_aux_digits fuel n acc : all_digits acc -> all_digits (dec_aux fuel n acc).
Proof.
  revert n acc. induction fuel as [|f IH]; intros n acc H; [exact H|]. cbn [dec_aux].
  assert (H' : all_digits (String (digit_char (n mod 10)) acc)).
  { split; [exists (n mod 10)%N; split; [apply N.mod_lt; discriminate|reflexivity]|exact H]. }
  destruct (n / 10 =? 0)%N; [exact H'|]. apply IH, H'.
Qed.

Lemma dec_aux_nonempty fuel n acc : fuel <> O \/ acc <> ""%string -> dec_aux fuel n acc <> ""%string.
Proof.
  revert n acc. induction fuel as [|f IH]; intros n acc H; [destruct H; [congruence|assumption]|].
  cbn [dec_aux]. destruct (n / 10 =? 0)%N; [discriminate|]. apply IH. right. discriminate.
Qed.

Fixpoint dval (s : string) (acc : N) : N :=
  match s with
  | "" => acc
  | String c r => dval r (10 * acc + match digit_val c with Some d => d | None => 0 end)%N
  end.

Lemma pdig_digits s : all_digits s -> forall need acc, (s <> ""%string \/ need = false) ->
  pdig need s acc = Some (dval s acc).
Proof.
  induction s as [|c r IH]; intros Hs need acc Hn.
  - destruct Hn as [Hn|Hn]; [congruence|]. subst. reflexivity.
  - destruct Hs as [[d [Hd ->]] Hr]. cbn [pdig dval].
    rewrite (digit_val_char _ Hd). apply IH; [assumption|right; reflexivity].
Qed.

Lemma dval_app : forall s acc, dval s acc = (10 ^ N.of_nat (String.length s) * acc + dval s 0)%N.
Proof.
  induction s as [|c r IH]; intros acc; [change (N.of_nat (String.length "")) with 0%N; rewrite N.pow_0_r; cbn [dval]; lia|].
  cbn [dval String.length]. rewrite (IH (10 * acc + _)%N), (IH (10 * 0 + _)%N).
  rewrite Nat2N.inj_succ, N.pow_succ_r'. lia.
Qed.

Lemma dec_aux_val fuel n acc : (n < 2 ^ N.of_nat fuel)%N -> (0 < fuel)%nat ->
  dval (dec_aux fuel n acc) 0 = (10 ^ N.of_nat (String.length acc) * n + dval acc 0)%N.
Proof.
  revert n acc. induction fuel as [|f IH]; intros n acc Hn Hf; [lia|].
  cbn [dec_aux].
  assert (Hm : (n mod 10 < 10)%N) by (apply N.mod_lt; discriminate).
  assert (Hdm : n = (10 * (n / 10) + n mod 10)%N) by (apply N.div_mod; discriminate).
  assert (Hc : dval (String (digit_char (n mod 10)) acc) 0 =
          (10 ^ N.of_nat (String.length acc) * (n mod 10) + dval acc 0)%N).
  { cbn [dval]. rewrite (digit_val_char _ Hm). rewrite N.mul_0_r, N.add_0_l. apply dval_app. }
  destruct (N.eqb_spec (n / 10) 0) as [E|E].
  - rewrite Hc. rewrite Hdm at 2. rewrite E. lia.
  - rewrite Nat2N.inj_succ, N.pow_succ_r' in Hn.
    rewrite IH.
    + rewrite Hc. cbn [String.length]. rewrite Nat2N.inj_succ, N.pow_succ_r'. nia.
    + apply N.div_lt_upper_bound; [discriminate|]. lia.
    + destruct f; [|lia]. exfalso. apply E. apply N.div_small. change (N.of_nat 0) with 0%N in Hn. rewrite N.pow_0_r in Hn. lia.
Qed.

Lemma size_bound n : (n < 2 ^ N.of_nat (S (N.size_nat n)))%N.
Proof.
  destruct n as [|p]; [reflexivity|].
  rewrite Nat2N.inj_succ, N.pow_succ_r'.
  assert (H : (Npos p < 2 ^ N.size (Npos p))%N) by apply N.size_gt.
  replace (N.of_nat (N.size_nat (N.pos p))) with (N.size (N.pos p)).
  - lia.
  - clear H. cbn [N.size N.size_nat]. induction p as [p IH|p IH|]; cbn [Pos.size Pos.size_nat]; lia.
Qed.

Lemma dec_digits n : all_digits (dec n).
Proof. apply dec_aux_digits. exact I. Qed.

Lemma dec_nonempty n : dec n <> ""%string.
Proof. apply dec_aux_nonempty. left. discriminate. Qed.

Lemma dec_val n : dval (dec n) 0 = n.
Proof. unfold dec. rewrite dec_aux_val; [change (N.of_nat (String.length "")) with 0%N; rewrite N.pow_0_r; cbn [dval]; lia|apply size_bound|lia]. Qed.

Lemma digits_no_colon s : all_digits s -> no_colon s.
Proof. induction s as [|c r IH]; simpl; [tauto|]. intros [[d [Hd ->]] Hr]. split; [|auto]. now apply digit_char_props. Qed.

Lemma digits_no_space s : all_digits s -> no_space s.
Proof. induction s as [|c r IH]; simpl; [tauto|]. intros [[d [Hd ->]] Hr]. split; [|auto]. now apply digit_char_props. Qed.

Lemma py_int_dec n : py_int (dec n) = Some (Z.of_N n).
Proof.
  unfold py_int. rewrite strip_id by apply digits_no_space, dec_digits.
  pose proof (dec_digits n) as Hd. pose proof (dec_nonempty n) as Hn. pose proof (dec_val n) as Hv.
  pose proof (pdig_digits _ Hd true 0%N (or_introl Hn)) as Hp. rewrite Hv in Hp.
  destruct (dec n) as [|c r]; [congruence|].
  destruct Hd as [[d [Hd ->]] _]. destruct (digit_char_props _ Hd) as (_ & _ & Hm & Hpl).
  destruct (digit_char d) as [b0 b1 b2 b3 b4 b5 b6 b7].
  destruct b0, b1, b2, b3, b4, b5, b6, b7; try (rewrite Hp; reflexivity); exfalso; first [now apply Hm|now apply Hpl].
Qed.

Lemma py_int_dec_Z z : py_int (dec_Z z) = Some z.
Proof.
  destruct z as [|p|p]; [apply (py_int_dec 0)|apply (py_int_dec (Npos p))|].
  unfold dec_Z, py_int. rewrite strip_id.
  - rewrite (pdig_digits _ (dec_digits _)); [|left; apply dec_nonempty]. rewrite dec_val. reflexivity.
  - split; [reflexivity|]. apply digits_no_space, dec_digits.
Qed.

Lemma dec_Z_no_colon z : no_colon (dec_Z z).
Proof.
  destruct z as [|p|p]; try apply digits_no_colon, dec_digits.
  split; [discriminate|]. apply digits_no_colon, dec_digits.
Qed.

Lemma dec_Z_no_space z : no_space (dec_Z z).
Proof.
  destruct z as [|p|p]; try apply digits_no_space, dec_digits.
  split; [reflexivity|]. apply digits_no_space, dec_digits.
Qed.

Lemma dec_nat_Z n : dec_nat n = dec_Z (Z.of_nat n).
Proof. unfold dec_nat, dec_Z. destruct n; simpl; [reflexivity|]. f_equal. Qed.

Lemma dec_inj m n : dec m = dec n -> m = n.
Proof. intros H. rewrite <- (dec_val m), <- (dec_val n). now rewrite H. Qed.

Lemma dec_nat_inj m n : dec_nat m = dec_nat n -> m = n.
Proof. intros H. apply dec_inj in H. lia. Qed.

Lemma py_int_dec_nat n : py_int (dec_nat n) = Some (Z.of_nat n).
Proof. rewrite dec_nat_Z. apply py_int_dec_Z. Qed.
