(** Properties C111 (printed numbers), C112 (printed environments) and C113 (printed components). *)
From Coq Require Import QArith Qabs Lqa Lia.
From Verif Require Import Base PyStr PyStrProofs EnvModel EnvKwModel EnvKwProofs PrintModel PrintSpec PrintProofs.
Set Implicit Arguments.
Unset Strict Implicit.
Local Open Scope string_scope.
Local Open Scope list_scope.
Local Open Scope nat_scope.

(** * C111 *)
(** A printed number can be read back, with an error of at most 0.05 percent. *)
Theorem C111_close q : exists v, read (fmt q) = Some v /\ (Qabs (v - q) <= Qabs q * (1 # 2000))%Q.
Proof.
  destruct (fmt_read q) as (v & R & V). exists v. split; [exact R|]. rewrite V. unfold printed.
  destruct (Qeq_bool q 0) eqn:Z; [apply Qeq_bool_iff in Z; rewrite Z; vm_compute; discriminate|].
  apply Qeq_bool_neq in Z. destruct (Qle_bool q 0) eqn:L.
  - apply Qle_bool_iff in L. assert (P : (0 < Qabs q)%Q) by (rewrite Qabs_neg by exact L; lra).
    pose proof (sci_near P) as N. rewrite <- Qabs_opp in N.
    setoid_replace (- worth (sci (Qabs q)) - q)%Q with (- (worth (sci (Qabs q)) - Qabs q))%Q; [exact N|].
    pose proof (Qabs_neg q L) as A. generalize (worth (sci (Qabs q))). intros W. lra.
  - assert (G : (0 < q)%Q) by (apply Qnot_le_lt; intros H; apply Qle_bool_iff in H; congruence).
    assert (P : (0 < Qabs q)%Q) by (rewrite Qabs_pos by lra; exact G).
    pose proof (sci_near P) as N.
    setoid_replace (worth (sci (Qabs q)) - q)%Q with (worth (sci (Qabs q)) - Qabs q)%Q; [exact N|].
    assert (A : (Qabs q == q)%Q) by (apply Qabs_pos; lra). generalize (worth (sci (Qabs q))). intros W. lra.
Qed.

Lemma printed_pos q : (0 < q)%Q -> (printed q == worth (sci q))%Q.
Proof.
  intros G. unfold printed. destruct (Qeq_bool q 0) eqn:Z; [apply Qeq_bool_iff in Z; lra|].
  destruct (Qle_bool q 0) eqn:L; [apply Qle_bool_iff in L; lra|].
  rewrite (@sci_compat (Qabs q) q); [reflexivity|rewrite Qabs_pos by lra; exact G|apply Qabs_pos; lra].
Qed.
Lemma printed_neg q : (q < 0)%Q -> (printed q == - worth (sci (- q)))%Q.
Proof.
  intros G. unfold printed. destruct (Qeq_bool q 0) eqn:Z; [apply Qeq_bool_iff in Z; lra|].
  destruct (Qle_bool q 0) eqn:L; [|assert (H : (q <= 0)%Q) by lra; apply Qle_bool_iff in H; congruence].
  rewrite (@sci_compat (Qabs q) (- q)); [reflexivity|rewrite Qabs_neg by lra; lra|apply Qabs_neg; lra].
Qed.
Lemma printed_0 q : (q == 0)%Q -> printed q = 0%Q.
Proof. intros E. unfold printed. apply Qeq_bool_iff in E. rewrite E. reflexivity. Qed.
Lemma worth_pos a : (0 < a)%Q -> (0 < worth (sci a))%Q.
Proof.
  intros H. destruct (sci_spec H) as [B _]. unfold worth. pose proof (ten_pos (snd (sci a) - 3)) as P.
  assert (M : (0 < inject_Z (fst (sci a)))%Q) by (change 0%Q with (inject_Z 0); rewrite <- Zlt_Qlt; lia).
  setoid_replace 0%Q with (0 * ten (snd (sci a) - 3))%Q by ring. apply Qmult_lt_r; auto.
Qed.

(** Numbers with four digits are printed exactly. *)
Theorem C111_exact q m e : (1000 <= Z.abs m <= 9999)%Z -> (q == inject_Z m * Qpower 10 e)%Q ->
  exists v, read (fmt q) = Some v /\ (v == q)%Q.
Proof.
  intros Hm E. destruct (fmt_read q) as (v & R & V). exists v. split; [exact R|]. rewrite V.
  change (Qpower 10 e) with (ten e) in E. replace (ten e) with (ten (e + 3 - 3)) in E by (f_equal; lia).
  pose proof (ten_pos (e + 3 - 3)) as P.
  assert (S : forall k, (0 < k)%Z -> (0 < inject_Z k * ten (e + 3 - 3))%Q).
  { intros k Hk. setoid_replace 0%Q with (0 * ten (e + 3 - 3))%Q by ring. apply Qmult_lt_r; [exact P|].
    change 0%Q with (inject_Z 0). rewrite <- Zlt_Qlt. exact Hk. }
  destruct (Z.lt_trichotomy m 0) as [L|[L|L]]; [|lia|].
  - assert (E' : (- q == inject_Z (- m) * ten (e + 3 - 3))%Q) by (rewrite E, inject_Z_opp; ring).
    assert (N : (0 < - q)%Q) by (rewrite E'; apply S; lia).
    rewrite printed_neg by lra. rewrite (@sci_exact (- q) (- m) (e + 3)) by (auto; lia). unfold worth. cbn [fst snd].
    rewrite <- E'. ring.
  - assert (N : (0 < q)%Q) by (rewrite E; apply S; lia).
    rewrite printed_pos by exact N. rewrite (@sci_exact q m (e + 3)) by (auto; lia). unfold worth. cbn [fst snd]. rewrite E. reflexivity.
Qed.

(** The order of numbers is kept. *)
Theorem C111_order p q v w : (p <= q)%Q -> read (fmt p) = Some v -> read (fmt q) = Some w -> (v <= w)%Q.
Proof.
  intros H R1 R2. destruct (fmt_read p) as (v' & R1' & V). destruct (fmt_read q) as (w' & R2' & W).
  assert (v' = v) by congruence. assert (w' = w) by congruence. subst v' w'. rewrite V, W.
  destruct (Q_dec p 0) as [[Hp|Hp]|Hp], (Q_dec q 0) as [[Hq|Hq]|Hq]; try lra.
  - rewrite !printed_neg by auto. assert (N : (worth (sci (- q)) <= worth (sci (- p)))%Q) by (apply sci_le; lra). lra.
  - rewrite printed_neg, printed_pos by auto. assert (P : (0 < - p)%Q) by lra. pose proof (worth_pos P). pose proof (worth_pos Hq). lra.
  - rewrite printed_neg, (printed_0 Hq) by auto. assert (P : (0 < - p)%Q) by lra. pose proof (worth_pos P). lra.
  - rewrite !printed_pos by auto. apply sci_le; auto.
  - rewrite (printed_0 Hp), printed_pos by auto. pose proof (worth_pos Hq). lra.
  - rewrite (printed_0 Hp), (printed_0 Hq). lra.
Qed.

(** The printed number is the closest one with four digits, in case of a tie the one with the even last digit. *)
Theorem C111_nearest q v : ~ (q == 0)%Q -> read (fmt q) = Some v ->
  exists k, four_digits k v /\ forall m w, four_digits m w ->
    (Qabs (v - q) <= Qabs (w - q))%Q /\ ((Qabs (v - q) == Qabs (w - q))%Q -> (w == v)%Q \/ Z.even k = true).
Proof.
  intros Nz R. destruct (fmt_read q) as (v' & R' & V). assert (v' = v) by congruence. subst v'.
  destruct (Q_dec q 0) as [[Hq|Hq]|Hq]; [| |contradiction].
  - rewrite printed_neg in V by exact Hq. assert (P : (0 < - q)%Q) by lra. set (a := (- q)%Q) in *.
    destruct (sci_four P) as [F (e & E)]. exists (- fst (sci a))%Z. split.
    + split; [lia|]. exists e. rewrite V, E, inject_Z_opp. ring.
    + intros m w [Hm (e' & Ew)]. assert (F' : four_digits (- m) (- w)).
      { split; [lia|]. exists e'. rewrite Ew, inject_Z_opp. ring. }
      assert (A : forall x y, (x == - y)%Q -> (Qabs (x - q) == Qabs (y - a))%Q).
      { intros x y H. rewrite <- Qabs_opp. setoid_replace (- (x - q))%Q with (y - a)%Q by (unfold a; rewrite H; ring). reflexivity. }
      rewrite (A v (worth (sci a)) V), (A w (- w)%Q ltac:(ring)). destruct (sci_nearest P F') as [N T]. split; [exact N|].
      intros Q. destruct (T Q) as [H|H]; [left; rewrite V, <- H; ring|right; now rewrite Z.even_opp].
  - rewrite printed_pos in V by exact Hq. exists (fst (sci q)). split.
    + destruct (sci_four Hq) as [F (e & E)]. split; [exact F|]. exists e. now rewrite V.
    + intros m w F. rewrite V. exact (sci_nearest Hq F).
Qed.

(** Its layout. *)
Theorem C111_layout q : layout q (fmt q).
Proof. exact (fmt_layout q). Qed.

Theorem C111_same p q : (p == q)%Q -> fmt p = fmt q.
Proof.
  intros E. unfold fmt. replace (Qeq_bool q 0) with (Qeq_bool p 0) by (rewrite E; reflexivity).
  destruct (Qeq_bool p 0) eqn:Z; [reflexivity|]. apply Qeq_bool_neq in Z.
  rewrite (@sci_compat (Qabs p) (Qabs q)); [|apply Qabs_case; intros H; apply Qle_lteq in H; destruct H as [H|H]; try lra; exfalso; apply Z; lra|rewrite E; reflexivity].
  replace (Qle_bool q 0) with (Qle_bool p 0) by (rewrite E; reflexivity). reflexivity.
Qed.

(** Other numbers are not: there are different numbers that print alike. *)
Theorem C111_different_refuted : exists p q, ~ (p == q)%Q /\ fmt p = fmt q.
Proof. exists (155 # 100000000), (15501 # 10000000000). split; [intros H; discriminate H|]. vm_compute. reflexivity. Qed.

Example C111_ex : map fmt [155 # 100000000; -1 # 3; 0; 299792458 # 1; 99995 # 10; 99985 # 10; 1 # 10000000000000]%Q =
  ["1.550e-06"; "-3.333e-01"; "0.000e+00"; "2.998e+08"; "1.000e+04"; "9.998e+03"; "1.000e-13"]
  /\ (155 # 100000000 == inject_Z 1550 * Qpower 10 (-9))%Q /\ read "-3.333e-01" = Some (- (inject_Z 3333 * Qpower 10 (-1 - 3)))%Q.
Proof. split; [vm_compute; reflexivity|]. split; reflexivity. Qed.
Print Assumptions C111_close.
Print Assumptions C111_exact.
Print Assumptions C111_order.
Print Assumptions C111_nearest.
Print Assumptions C111_layout.
Print Assumptions C111_same.
Print Assumptions C111_different_refuted.

(** * C112 *)
Section Env.
Variables (py_str : val -> string) (str_repr : string -> string) (other_repr other_str : val -> string).
Notation new_env := (new_env py_str).
Notation copy_env := (copy_env py_str).
Notation attr_repr := (attr_repr str_repr other_repr).
Notation env_repr := (env_repr str_repr other_repr).
Notation env_str := (env_str str_repr other_repr).
Notation env_html := (env_html other_str).

Lemma app_nil_s (s : string) : (s ++ "")%string = s.
Proof. induction s as [|c s IH]; [reflexivity|]. cbn. now rewrite IH. Qed.
Lemma app_assoc_s (a b c : string) : ((a ++ b) ++ c)%string = (a ++ b ++ c)%string.
Proof. induction a as [|x a IH]; [reflexivity|]. cbn. now rewrite IH. Qed.
Lemma length_app_s a b : String.length (a ++ b) = String.length a + String.length b.
Proof. induction a as [|x a IH]; [reflexivity|]. cbn. now rewrite IH. Qed.
Lemma fold_app {X} (f : X -> string) l : forall s, fold_left (fun s e => s ++ f e)%string l s = (s ++ fold_right (fun e r => f e ++ r)%string "" l)%string.
Proof.
  induction l as [|e l IH]; intros s; cbn; [now rewrite app_nil_s|]. rewrite IH, app_assoc_s. reflexivity.
Qed.
Lemma substring_app a b : substring 0 (String.length a) (a ++ b) = a.
Proof. induction a as [|x a IH]; [now destruct b|]. cbn. now rewrite IH. Qed.
Lemma drop_last_app a b : drop_last (String.length b) (a ++ b) = a.
Proof. unfold drop_last. rewrite length_app_s. replace (_ + _ - _) with (String.length a) by lia. apply substring_app. Qed.

(** [repr(env)] lists all attributes that are neither private nor old names, in order. *)
Theorem C112_repr d : shown d <> [] ->
  env_repr d = ("Environment(" ++ join ", " (map (fun e => fst e ++ "=" ++ attr_repr (fst e) (snd e)) (shown d)) ++ ")")%string.
Proof.
  intros N. unfold PrintModel.env_repr. rewrite (fold_app (fun e => fst e ++ "=" ++ attr_repr (fst e) (snd e) ++ ", ")%string).
  assert (E : forall l, l <> [] -> fold_right (fun e r => (fst e ++ "=" ++ attr_repr (fst e) (snd e) ++ ", ") ++ r)%string "" l
    = (join ", " (map (fun e => fst e ++ "=" ++ attr_repr (fst e) (snd e)) l) ++ ", ")%string).
  { induction l as [|e l IH]; [contradiction|]. intros _. destruct l as [|e' l].
    - cbn [fold_right map join]. rewrite app_nil_s, !app_assoc_s. reflexivity.
    - cbn [fold_right] in IH |- *. rewrite IH by discriminate. cbn [map join]. rewrite !app_assoc_s. reflexivity. }
  rewrite E by exact N. rewrite <- app_assoc_s, (@drop_last_app _ ", "), app_assoc_s. reflexivity.
Qed.

Lemma blank_spaces n : blank (spaces n).
Proof. induction n; cbn; auto. Qed.
Lemma length_spaces n : String.length (spaces n) = n.
Proof. induction n; cbn; auto. Qed.

(** [str(env)] has one line per attribute, and all values start in the same column. *)
Theorem C112_str d : shown d <> [] -> exists w lines,
  env_str d = Ok ("Simulation Environment:" ++ newline ++ "-----------------------" ++ newline ++ fold_right append "" lines)%string /\
  Forall2 (fun e l => exists pad, blank pad /\ String.length (fst e ++ pad) = w /\ pad <> "" /\
    l = (fst e ++ pad ++ ": " ++ attr_repr (fst e) (snd e) ++ newline)%string) (shown d) lines.
Proof.
  intros N. unfold PrintModel.env_str. destruct (shown d) as [|e0 l0] eqn:S; [contradiction|]. rewrite <- S in *. clear S e0 l0.
  set (w := list_max (map (fun e => String.length (fst e)) (shown d)) + 1).
  set (line := fun e : string * pv => (fst e ++ spaces (w - String.length (fst e)) ++ ": " ++ attr_repr (fst e) (snd e) ++ newline)%string).
  exists w, (map line (shown d)). split.
  - rewrite (fold_app line). f_equal. rewrite !app_assoc_s. do 4 f_equal. clearbody line. clear N w.
    induction (shown d) as [|e l IH]; [reflexivity|]. cbn [fold_right map]. now rewrite IH.
  - assert (L : forall e, In e (shown d) -> String.length (fst e) < w).
    { intros e I. unfold w. assert (H : Forall (fun k => k <= list_max (map (fun e => String.length (fst e)) (shown d))) (map (fun e => String.length (fst e)) (shown d))).
      { apply list_max_le. apply le_n. }
      rewrite Forall_forall in H. specialize (H (String.length (fst e))). rewrite in_map_iff in H. specialize (H (ex_intro _ e (conj eq_refl I))). lia. }
    clearbody w. induction (shown d) as [|e l IH]; cbn [map]; constructor.
    + exists (spaces (w - String.length (fst e))). specialize (L e (or_introl eq_refl)). split; [apply blank_spaces|]. split; [|split; [|reflexivity]].
      * rewrite length_app_s, length_spaces. lia.
      * intros H. apply (f_equal String.length) in H. rewrite length_spaces in H. cbn in H. lia.
    + destruct l as [|e' l']; [constructor|]. apply IH; [discriminate|]. intros x I. apply L. now right.
Qed.

(** How values are printed: numbers as above, arrays of more than four numbers abbreviated. *)
Theorem C112_values k :
  (forall l, length l <= 4 -> mem k ["t"; "wl"; "f"] = true -> attr_repr k (EnvKwModel.plain (VArr (Vec l))) = ("array([" ++ String.concat ", " (map fmt l) ++ "])")%string) /\
  (forall a b m z, 2 <= length m -> mem k ["t"; "wl"; "f"] = true ->
     attr_repr k (EnvKwModel.plain (VArr (Vec (a :: b :: m ++ [z])))) = ("array([" ++ fmt a ++ ", " ++ fmt b ++ ", ..., " ++ fmt z ++ "])")%string) /\
  (forall q b, attr_repr k {| v_val := VNum q; v_mark := b |} = fmt q /\ attr_str other_str k {| v_val := VNum q; v_mark := b |} = Ok (fmt q)) /\
  (forall z b, py_int (attr_repr k {| v_val := VInt z; v_mark := b |}) = Some z) /\
  (forall b, attr_repr k {| v_val := VNone; v_mark := b |} = "None") /\
  (forall x b, attr_repr k {| v_val := VBool x; v_mark := b |} = if x then "True" else "False") /\
  (forall s b, attr_repr k {| v_val := VStr s; v_mark := b |} = str_repr s /\ attr_str other_str k {| v_val := VStr s; v_mark := b |} = Ok s) /\
  (mem k ["t"; "wl"; "f"] = true ->
     (forall q, attr_str other_str k (EnvKwModel.plain (VArr (Vec [q]))) = Ok (fmt q)) /\
     (forall l, 2 <= length l <= 4 -> attr_str other_str k (EnvKwModel.plain (VArr (Vec l))) = Ok ("[" ++ String.concat "," (map fmt l) ++ "]")%string) /\
     (forall a b m z, 2 <= length m -> attr_str other_str k (EnvKwModel.plain (VArr (Vec (a :: b :: m ++ [z])))) = Ok ("[" ++ fmt a ++ ", " ++ fmt b ++ ", ..., " ++ fmt z ++ "]")%string)).
Proof.
  assert (J : forall sep l, join sep l = String.concat sep l).
  { intros sep l. induction l as [|a [|b l] IH]; [reflexivity|reflexivity|]. cbn [join String.concat] in IH |- *. now rewrite IH. }
  assert (Long : forall sep a b (m : list Q) z, 2 <= length m -> arr_body sep (a :: b :: m ++ [z]) = ("[" ++ fmt a ++ ", " ++ fmt b ++ ", ..., " ++ fmt z ++ "]")%string).
  { intros sep a b m z Hm. unfold arr_body. destruct (Nat.ltb_spec 4 (length (a :: b :: m ++ [z]))) as [L|L]; [|cbn [length] in L; rewrite app_length in L; cbn [length] in L; lia].
    replace (last (a :: b :: m ++ [z]) 0%Q) with z; [cbn [nth]; rewrite !app_assoc_s; reflexivity|].
    change (a :: b :: m ++ [z]) with ((a :: b :: m) ++ [z]). now rewrite last_last. }
  assert (Short : forall sep l, length l <= 4 -> arr_body sep l = ("[" ++ String.concat sep (map fmt l) ++ "]")%string).
  { intros sep l Hl. unfold arr_body. destruct (Nat.ltb_spec 4 (length l)); [lia|]. now rewrite J. }
  split; [|split; [|split; [|split; [|split; [|split; [|split; [|intros Hk; split; [|split]]]]]]]]; try (intros; reflexivity).
  - intros l Hl Hk. unfold PrintModel.attr_repr, own_array. cbn [v_val EnvKwModel.plain]. rewrite Hk. cbn [orb]. unfold arr_repr. rewrite Short by exact Hl.
    rewrite !app_assoc_s. reflexivity.
  - intros a b m z Hm Hk. unfold PrintModel.attr_repr, own_array. cbn [v_val EnvKwModel.plain]. rewrite Hk. cbn [orb]. unfold arr_repr. rewrite Long by exact Hm.
    rewrite !app_assoc_s. reflexivity.
  - split; reflexivity.
  - intros z b. apply py_int_dec_Z.
  - split; reflexivity.
  - intros q. unfold attr_str, own_array. cbn [v_val EnvKwModel.plain]. rewrite Hk. reflexivity.
  - intros l Hl. unfold attr_str, own_array. cbn [v_val EnvKwModel.plain]. rewrite Hk. cbn [orb]. unfold arr_str.
    destruct l as [|a [|b l]]; [cbn in Hl; lia..|]. rewrite Short by lia. reflexivity.
  - intros a b m z Hm. unfold attr_str, own_array. cbn [v_val EnvKwModel.plain]. rewrite Hk. cbn [orb]. unfold arr_str. rewrite Long by exact Hm. reflexivity.
Qed.

(** Without extra arguments these are the attributes, and each has a description. *)
Theorem C112_names kw d : new_env kw = Ok d -> extras kw = [] ->
  map fst (shown d) = public /\ forall k, In k public -> describe k <> "".
Proof.
  intros H X. destruct (new_inv H) as (_ & dk & e & _ & _ & F). rewrite X in F. unfold finish in F. cbn in F. injection F as <-.
  split; [reflexivity|]. intros k I. cbn in I. repeat (destruct I as [<-|I]; [discriminate|]). destruct I.
Qed.

(** Extra attributes have no description. *)
Theorem C112_undescribed k : ~ In k public -> k <> "**kwargs" -> describe k = "".
Proof.
  intros N M. unfold describe. cbn [descriptions assoc].
  repeat (match goal with |- context [String.eqb k ?x] => destruct (String.eqb_spec k x) as [->|]; [exfalso; (now apply M) || (apply N; cbn; tauto)|] end). reflexivity.
Qed.

(** The descriptions begin with the unit of the attribute. *)
Definition unit_of (k : string) : option string :=
  if existsb (String.eqb k) ["t"; "t0"; "t1"; "dt"; "bitlength"] then Some "s"
  else if existsb (String.eqb k) ["samplerate"; "bitrate"; "f"; "f0"; "f1"; "df"] then Some "1/s"
  else if existsb (String.eqb k) ["wl"; "wl0"; "wl1"; "dwl"] then Some "m"
  else if String.eqb k "c" then Some "m/s" else None.
Theorem C112_units k : In k public ->
  match unit_of k with
  | Some u => exists r, describe k = ("[" ++ u ++ "] " ++ r)%string
  | None => exists c r, describe k = String c r /\ c <> "["%char
  end.
Proof.
  intros I. cbn in I. repeat (destruct I as [<-|I]; [cbn; (eexists; reflexivity) || (do 2 eexists; split; [reflexivity|discriminate])|]). destruct I.
Qed.

(** Every environment has something to print. *)
Theorem C112_nonempty kw d : NoDup (map fst kw) -> new_env kw = Ok d -> forall n, In n public -> In n (map fst (shown d)).
Proof.
  intros ND H n I. destruct (new_inv H) as (_ & dk & e & _ & _ & F).
  assert (A : look n (attributes e) <> None).
  { cbn in I. repeat (destruct I as [<-|I]; [discriminate|]). destruct I. }
  assert (C : copied n = true) by (cbn in I; repeat (destruct I as [<-|I]; [reflexivity|]); destruct I).
  assert (Hd : ~ In n hidden) by (intros X; cbn in X; destruct X as [<-|[<-|[<-|[]]]]; discriminate C).
  pose proof (finish_look (extras_NoDup ND) F Hd) as L.
  assert (X : exists v, look n d = Some v).
  { rewrite L. destruct (look n (extras kw)); [eauto|]. destruct (look n (attributes e)); [eauto|contradiction]. }
  destruct X as (v & X). apply look_Some_In in X. apply in_map_iff. exists (n, v). split; [reflexivity|]. apply filter_In. auto.
Qed.

Lemma finish_shape e (x d : dict) : NoDup (map fst x) -> finish e x = Ok d -> forall n v, In (n, v) (shown d) ->
  look n x = Some v \/ look n (attributes e) = Some v.
Proof.
  intros ND F n v I. apply filter_In in I as [I C].
  assert (L : look n d = Some v).
  { pose proof (finish_NoDup F) as NDd. clear - I NDd. induction d as [|[m u] d IH]; [destruct I|]. rewrite look_cons. cbn in NDd. inversion NDd; subst.
    destruct I as [[= -> ->]|I]; [now rewrite String.eqb_refl|]. destruct (String.eqb_spec n m) as [->|]; [|auto].
    exfalso. apply H1. apply in_map_iff. exists (m, v). auto. }
  rewrite (finish_look ND F) in L.
  - destruct (look n x); auto.
  - intros Hh. cbn in Hh, C. unfold copied in C. cbn [fst] in C. destruct Hh as [<-|[<-|[<-|[]]]]; discriminate C.
Qed.

Lemma arrays e : n_t e <> [] -> n_wl e <> [] -> n_f e <> [] ->
  forall n v, look n (attributes e) = Some v -> exists s, attr_str other_str n v = Ok s.
Proof.
  intros H1 H2 H3 n v L. apply look_Some_In in L. unfold attributes in L. rewrite in_map_iff in L. destruct L as ((m & u) & E & I). cbn [fst snd] in E. injection E as <- <-.
  assert (A : forall l, l <> [] -> exists s, arr_str l = Ok s) by (intros [|a [|b l]] N; [contradiction|eexists; reflexivity..]).
  assert (O : forall o, exists s, attr_str other_str m (plain (opt_num o)) = Ok s) by (intros [q|]; eexists; reflexivity).
  cbn [In] in I. repeat (destruct I as [[= <- <-]|I]; [try apply O; try (eexists; reflexivity);
    cbn; try apply A; auto; destruct (A _ H1); eexists; reflexivity|]). destruct I.
Qed.

(** The HTML table of an environment: one row per attribute. *)
Theorem C112_html kw d : NoDup (map fst kw) -> unmarked kw -> new_env kw = Ok d -> exists rows,
  env_html d = Ok (html_head ++ fold_right append "" rows ++ "</tbody>" ++ newline ++ "</table>" ++ newline ++ "</div>")%string /\
  Forall2 (fun e r => exists v, attr_str other_str (fst e) (snd e) = Ok v /\
    r = ("<tr><th>" ++ fst e ++ "</th><td>" ++ v ++ "</td><td>" ++ describe (fst e) ++ "</td></tr>" ++ newline)%string) (shown d) rows.
Proof.
  intros ND U H. destruct (new_inv H) as (_ & dk & e & _ & HE & F).
  assert (NE : n_t e <> [] /\ n_wl e <> [] /\ n_f e <> []).
  { unfold construct in HE. destruct (checks _ _); [|discriminate]. cbn [bind] in HE. destruct (bitrate_of _ _); [|discriminate]. cbn [bind] in HE.
    destruct (time_grid _ _) as [t|]; [|discriminate]. cbn [bind] in HE. destruct (wl_grid _ _) as [wl|]; [|discriminate]. cbn [bind] in HE.
    match type of HE with bind ?x _ = _ => destruct x eqn:E1; [|discriminate] end. cbn [bind] in HE.
    match type of HE with bind ?x _ = _ => destruct x; [|discriminate] end. cbn [bind] in HE.
    match type of HE with bind ?x _ = _ => destruct x; [|discriminate] end. cbn [bind] in HE.
    match type of HE with bind ?x _ = _ => destruct x eqn:E2; [|discriminate] end. cbn [bind] in HE.
    match type of HE with bind ?x _ = _ => destruct x eqn:E3; [|discriminate] end. cbn [bind] in HE. injection HE as <-. cbn.
    split; [|split; destruct wl; discriminate].
    match type of E1 with head ?l = _ => assert (N : l <> []) by (intros X; rewrite X in E1; discriminate E1); exact N end. }
  destruct NE as (N1 & N2 & N3).
  assert (O : forall n v, In (n, v) (shown d) -> exists s, attr_str other_str n v = Ok s).
  { intros n v I. destruct (finish_shape (extras_NoDup ND) F I) as [L|L]; [|exact (arrays N1 N2 N3 L)].
    apply look_Some_In in L. unfold extras in L. apply filter_In in L as [L Ex]. cbn [fst] in Ex.
    assert (OA : own_array n v = false).
    { unfold own_array. rewrite (U n v L), orb_false_r. destruct (mem n ["t"; "wl"; "f"]) eqn:M; [|reflexivity].
      apply mem_In in M. cbn in M. destruct M as [<-|[<-|[<-|[]]]]; discriminate Ex. }
    unfold attr_str. rewrite OA. destruct (v_val v) as [| | | | |[]|]; eexists; reflexivity. }
  assert (M : forall l : dict, (forall n v, In (n, v) l -> exists s, attr_str other_str n v = Ok s) -> exists rows,
    mapM (fun e => do v <- attr_str other_str (fst e) (snd e); Ok (html_row (fst e) v (describe (fst e)))) l = Ok rows /\
    Forall2 (fun e r => exists v, attr_str other_str (fst e) (snd e) = Ok v /\ r = html_row (fst e) v (describe (fst e))) l rows).
  { induction l as [|[n v] l IH]; intros Hl; [exists []; split; [reflexivity|constructor]|].
    destruct (Hl n v (or_introl eq_refl)) as (s & E). destruct IH as (rows & E' & F2); [intros; apply Hl; now right|].
    exists (html_row n s (describe n) :: rows). cbn [mapM fst snd]. rewrite E. cbn [bind]. rewrite E'. split; [reflexivity|]. constructor; [|exact F2]. exists s. auto. }
  destruct (M _ O) as (rows & E & F2). exists rows. split; [|exact F2].
  unfold PrintModel.env_html. rewrite E. cbn [bind]. f_equal.
  change (fold_left append rows html_head) with (fold_left (fun s e => s ++ (fun x => x) e)%string rows html_head).
  rewrite fold_app, app_assoc_s. reflexivity.
Qed.

(** A copy of an environment with an empty array as extra attribute has no HTML table. *)
Theorem C112_html_refuted : exists kw d d', new_env kw = Ok d /\ copy_env d [] = Ok d' /\ env_html d' = Err TypeError.
Proof.
  set (kw := [("freqdomain", plain (VBool true)); ("data", plain (VArr (Vec [])))] : dict).
  assert (X : match (do d <- new_env kw; copy_env d []) with Ok d' => match env_html d' with Err TypeError => True | _ => False end | Err _ => False end)
    by (vm_compute; exact I).
  destruct (new_env kw) as [d|x] eqn:E; [|destruct X]. cbn [bind] in X. destruct (copy_env d []) as [d'|x] eqn:E'; [|destruct X].
  exists kw, d, d'. split; [exact E|]. split; [exact E'|]. destruct (env_html d') as [h|x]; [destruct X|]. destruct x; (reflexivity || destruct X).
Qed.

Lemma sorted_t a dk x y : sort_args py_str a = Ok dk -> a "t0" = Some (plain (VNum x)) -> a "t" = Some (plain (VArr (Vec y))) ->
  given (k_t0 (snd dk)) && given (k_t (snd dk)) = true.
Proof.
  intros S X Y. unfold sort_args in S. rewrite X, Y in S.
  repeat (match type of S with bind ?x _ = Ok _ => let E := fresh "E" in destruct x eqn:E; [|discriminate S] end; cbn [bind] in S).
  injection S as <-. cbn [snd k_t0 k_t].
  repeat match goal with E : slot as_num (Some (plain (VNum x))) = _ |- _ => injection E as <- | E : slot as_arr (Some (plain (VArr (Vec y)))) = _ |- _ => injection E as <- end.
  reflexivity.
Qed.
(** What [repr] prints is never accepted by the constructor: it has arguments that exclude each other. *)
Theorem C112_eval_refuted e : exists x, new_env (shown (attributes e)) = Err x.
Proof.
  destruct (new_env (shown (attributes e))) as [d|x] eqn:H; [exfalso|eauto].
  destruct (new_inv H) as (_ & dk & e' & S & C & _).
  assert (G := sorted_t S (x := n_t0 e) (y := n_t e) eq_refl eq_refl).
  unfold construct, checks in C. rewrite G in C.
  destruct (1 <? _); cbn [bind] in C; discriminate.
Qed.

(** Different environments can have the same [repr]. *)
Theorem C112_ambiguous_refuted : exists kw kw' d d', new_env kw = Ok d /\ new_env kw' = Ok d' /\
  (exists q q', look "wl0" d = Some (plain (VNum q)) /\ look "wl0" d' = Some (plain (VNum q')) /\ ~ (q == q')%Q) /\ env_repr d = env_repr d'.
Proof.
  set (kw q := [("freqdomain", plain (VBool true)); ("wl", plain (VNum q))] : dict).
  assert (X : match new_env (kw (155 # 100000000)%Q), new_env (kw (15501 # 10000000000)%Q) with
              | Ok d, Ok d' => look "wl0" d = Some (plain (VNum (155 # 100000000))) /\ look "wl0" d' = Some (plain (VNum (15501 # 10000000000)))
                               /\ env_repr d = env_repr d'
              | _, _ => False end) by (vm_compute; auto).
  destruct (new_env (kw (155 # 100000000)%Q)) as [d|x] eqn:E; [|destruct X]. destruct (new_env (kw (15501 # 10000000000)%Q)) as [d'|x] eqn:E'; [|destruct X].
  destruct X as (X1 & X2 & X3). do 2 eexists. exists d, d'. split; [exact E|]. split; [exact E'|]. split; [|exact X3].
  do 2 eexists. split; [exact X1|]. split; [exact X2|]. intros H. discriminate H.
Qed.
End Env.
Print Assumptions C112_repr.
Print Assumptions C112_str.
Print Assumptions C112_values.
Print Assumptions C112_names.
Print Assumptions C112_undescribed.
Print Assumptions C112_nonempty.
Print Assumptions C112_html.
Print Assumptions C112_html_refuted.
Print Assumptions C112_eval_refuted.
Print Assumptions C112_ambiguous_refuted.

(** Environment(freqdomain=True, wl=[1.5e-6, 1.6e-6], note=7) *)
Definition print_kw : dict := [("freqdomain", plain (VBool true)); ("wl", plain (VArr (Vec [15 # 10000000; 16 # 10000000]%Q))); ("note", plain (VInt 7))].
Definition quoted (s : string) : string := ("'" ++ s ++ "'")%string.
Definition print_text : string :=
  "Environment(name='env', t=array([0.000e+00]), t0=0.000e+00, t1=None, num_t=1, dt=None, samplerate=None, bitrate=None, bitlength=None, wl=array([1.500e-06, 1.600e-06]), wl0=1.500e-06, wl1=1.700e-06, num_wl=2, dwl=1.000e-07, f=array([1.999e+14, 1.874e+14]), f0=1.999e+14, f1=1.749e+14, num_f=2, df=-1.249e+13, c=2.998e+08, freqdomain=True, grad=False, note=7)".
Example C112_ex : exists d, new_env (fun _ => "") print_kw = Ok d /\ shown d <> [] /\ unmarked print_kw /\ NoDup (map fst print_kw) /\
  env_repr quoted (fun _ => "") d = print_text.
Proof.
  assert (X : match new_env (fun _ => "") print_kw with Ok d => length (shown d) = 23 /\ env_repr quoted (fun _ => "") d = print_text | Err _ => False end)
    by (vm_compute; auto).
  destruct (new_env (fun _ => "") print_kw) as [d|x]; [|destruct X]. destruct X as [X1 X2].
  exists d. split; [reflexivity|]. split; [intros H; rewrite H in X1; discriminate|]. split; [intros n v [[= <- <-]|[[= <- <-]|[[= <- <-]|[]]]]; reflexivity|].
  split; [repeat constructor; cbn; intuition discriminate|]. exact X2.
Qed.

(** * C113 *)
(** Strings without parentheses, such as names of classes. *)
Fixpoint no_paren (s : string) : Prop := match s with "" => True | String c r => c <> "("%char /\ no_paren r end.

(** A component prints its class, and its name if it has one. *)
Theorem C113_text cls : comp_repr cls None = cls /\ forall n, comp_repr cls (Some n) = (cls ++ "(name=" ++ String """" n ++ String """" ")")%string.
Proof. split; reflexivity. Qed.

(** What a component prints determines its class and its name. *)
Theorem C113_determined cls cls' n n' : no_paren cls -> no_paren cls' ->
  comp_repr cls n = comp_repr cls' n' -> cls = cls' /\ n = n'.
Proof.
  intros P P' E.
  assert (J : forall a b, (a ++ """)")%string = (b ++ """)")%string -> a = b).
  { intros a b H. rewrite <- (drop_last_app (fun _ => "") a """)"), H. apply (drop_last_app (fun _ => "")). }
  revert cls' P' E. induction cls as [|c r IH]; intros cls' P' E.
  - destruct cls' as [|c' r'].
    + split; [reflexivity|]. destruct n as [n|], n' as [n'|]; cbn in E; try discriminate; [|reflexivity]. f_equal. apply J. congruence.
    + exfalso. destruct P' as [Q _]. destruct n as [n|], n' as [n'|]; cbn in E; try discriminate; injection E as E _; congruence.
  - destruct P as [Q P]. destruct cls' as [|c' r'].
    + exfalso. destruct n as [n|], n' as [n'|]; cbn in E; try discriminate; injection E as E _; congruence.
    + destruct P' as [Q' P']. assert (E1 : c = c' /\ comp_repr r n = comp_repr r' n').
      { destruct n as [n|], n' as [n'|]; cbn in E |- *; injection E as E1 E2; auto. }
      destruct E1 as [-> E1]. destruct (IH P r' P' E1) as [-> ->]. auto.
Qed.
Print Assumptions C113_text.
Print Assumptions C113_determined.
Example C113_ex : no_paren "Waveguide" /\ comp_repr "Waveguide" (Some "wg") = "Waveguide(name=""wg"")".
Proof. split; [cbn; repeat split; discriminate|reflexivity]. Qed.
