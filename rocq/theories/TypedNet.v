(** Connections with numeric ports: how the strings written by the library are read back. *)
From Coq Require Import Permutation.
From Verif Require Import Base PyStr PyStrProofs NetModel NetSpec LinkProofs NetProofs WireProofs OrderProofs.
Set Implicit Arguments.
Unset Strict Implicit.
Local Open Scope list_scope.

(** A wire between two component ports, or an external number for a component port. *)
Inductive tconn := TW (n1 : string) (k1 : nat) (n2 : string) (k2 : nat) | TE (n : string) (k j : nat).

Definition tparts (t : tconn) : list string :=
  match t with
  | TW n1 k1 n2 k2 => [n1; dec_nat k1; n2; dec_nat k2]
  | TE n k j => [n; dec_nat k; dec_nat j]
  end.
Definition tstr (t : tconn) : string := String.concat ":" (tparts t).
Definition tnames (t : tconn) : list string :=
  match t with TW n1 _ n2 _ => [n1; n2] | TE n _ _ => [n] end.

(** Names the string encoding is transparent for: no colon, no blanks, not a number. *)
Definition good_name (s : string) : Prop := no_colon s /\ no_space s /\ py_int s = None.

Definition tgood (t : tconn) : Prop := Forall good_name (tnames t).

Lemma dec_nat_no_colon n : no_colon (dec_nat n).
Proof. rewrite dec_nat_Z. apply dec_Z_no_colon. Qed.
Lemma dec_nat_no_space n : no_space (dec_nat n).
Proof. rewrite dec_nat_Z. apply dec_Z_no_space. Qed.

Lemma tgood_TW n1 k1 n2 k2 : good_name n1 -> good_name n2 -> tgood (TW n1 k1 n2 k2).
Proof. intros H1 H2. apply Forall_cons; [exact H1|]. apply Forall_cons; [exact H2|]. apply Forall_nil. Qed.
Lemma tgood_TE n k j : good_name n -> tgood (TE n k j).
Proof. intros H1. apply Forall_cons; [exact H1|]. apply Forall_nil. Qed.
Ltac tg := first [apply tgood_TW | apply tgood_TE]; assumption.

Lemma tparts_ne t : tparts t <> [].
Proof. destruct t; discriminate. Qed.

Lemma tparts_no_colon t : tgood t -> Forall no_colon (tparts t).
Proof.
  intros H. destruct t; cbn in *; unfold tgood in H; cbn in H;
  repeat match goal with H : Forall _ (_ :: _) |- _ => inversion H; clear H; subst end;
  repeat (apply Forall_cons; [first [apply dec_nat_no_colon | apply H2 | apply H1 | apply H3]|]); try apply Forall_nil.
Qed.

Lemma tparts_no_space t : tgood t -> Forall no_space (tparts t).
Proof.
  intros H. destruct t; cbn in *; unfold tgood in H; cbn in H;
  repeat match goal with H : Forall _ (_ :: _) |- _ => inversion H; clear H; subst end;
  repeat (apply Forall_cons; [first [apply dec_nat_no_space | apply H2 | apply H1 | apply H3]|]); try apply Forall_nil.
Qed.

Lemma split_tstr t : tgood t -> split_colon (tstr t) = tparts t.
Proof. intros H. apply split_concat; [apply tparts_ne|now apply tparts_no_colon]. Qed.

Lemma clean_tstr t : tgood t -> clean_conn (tstr t) = tstr t.
Proof.
  intros H. unfold clean_conn. rewrite split_tstr by assumption.
  replace (map strip (tparts t)) with (tparts t); [apply join_concat|].
  pose proof (tparts_no_space H) as Hs. induction Hs as [|p l Hp _ IH]; [reflexivity|].
  cbn. rewrite <- IH, strip_id by assumption. reflexivity.
Qed.

Lemma clean_tstrs ts : Forall tgood ts -> map clean_conn (map tstr ts) = map tstr ts.
Proof.
  induction 1 as [|t l Ht _ IH]; [reflexivity|]. cbn. now rewrite IH, clean_tstr.
Qed.

Lemma filter_names t : tgood t -> filter (fun s => negb (is_int s)) (tparts t) = tnames t.
Proof.
  intros H. assert (Hd : forall k, is_int (dec_nat k) = true) by (intros k; unfold is_int; now rewrite py_int_dec_nat).
  assert (Hg : forall s, good_name s -> is_int s = false) by (intros s (_ & _ & Hs); unfold is_int; now rewrite Hs).
  unfold tgood in H. destruct t; cbn in *;
  repeat match goal with H : Forall _ (_ :: _) |- _ => inversion H; clear H; subst end;
  rewrite ?Hd; cbn; rewrite ?Hg by assumption; reflexivity.
Qed.

Lemma used_names_tstr ts : Forall tgood ts ->
  used_names (map tstr ts) = dedup (flat_map tnames ts) [].
Proof.
  intros H. unfold used_names. f_equal. induction H as [|t l Ht _ IH]; [reflexivity|].
  cbn [map flat_map]. rewrite filter_app, IH, split_tstr, filter_names by assumption. reflexivity.
Qed.

Section T.
Variables (X D : Type) (x0 : X) (d0 : D).
Notation buf := (buf X D).
Notation comps := (list (string * buf)).

(** Port [k] of component [n], as a parent sees it: its global number. *)
Definition gport (cs : comps) (n : string) (k p : nat) : Prop :=
  exists c st q, assoc String.eqb n cs = Some c /\ start_of n cs = Some st
                 /\ nth_error (free_ports c) k = Some q /\ p = st + q.

Lemma py_index_nat {A} (l : list A) k a : nth_error l k = Some a -> py_index l (Z.of_nat k) = Ok a.
Proof.
  intros H. apply py_index_Ok. left. split; [lia|]. now rewrite Nat2Z.id.
Qed.

Lemma parse_TW (cs : comps) n1 k1 n2 k2 p1 p2 : good_name n1 -> good_name n2 ->
  gport cs n1 k1 p1 -> gport cs n2 k2 p2 -> ~ (n1 = n2 /\ k1 = k2) ->
  parse_connection cs (tstr (TW n1 k1 n2 k2)) = Ok (Some (p1, p2)).
Proof.
  intros G1 G2 (c1 & st1 & q1 & A1 & S1 & N1 & ->) (c2 & st2 & q2 & A2 & S2 & N2 & ->) Hne.
  unfold parse_connection. rewrite split_tstr by tg. cbn [tparts].
  rewrite !py_int_dec_nat. cbn [of_option bind].
  assert (E : (String.eqb n1 n2 && (Z.of_nat k1 =? Z.of_nat k2)%Z) = false).
  { apply not_true_iff_false. intros E. apply andb_true_iff in E. destruct E as [E1 E2].
    apply String.eqb_eq in E1. apply Z.eqb_eq in E2. apply Hne. split; [exact E1|lia]. }
  rewrite E. unfold free_of. rewrite A1, A2. cbn [option_map of_option bind].
  assert (L : forall (l : list nat) k q, nth_error l k = Some q -> (Z.of_nat (length l) <=? Z.of_nat k)%Z = false).
  { intros l k q H. apply Z.leb_gt. assert (k < length l) by (apply nth_error_Some; congruence). lia. }
  rewrite (L _ _ _ N1), (L _ _ _ N2). rewrite S1. cbn [of_option bind].
  rewrite (py_index_nat N1). cbn [bind]. rewrite S2. cbn [of_option bind].
  rewrite (py_index_nat N2). reflexivity.
Qed.

Lemma parse_TE (cs : comps) n k j : good_name n -> parse_connection cs (tstr (TE n k j)) = Ok None.
Proof.
  intros G. unfold parse_connection. rewrite split_tstr by tg. reflexivity.
Qed.

Lemma output_TW (cs : comps) n1 k1 n2 k2 : good_name n1 -> good_name n2 ->
  parse_output cs (tstr (TW n1 k1 n2 k2)) = Ok None.
Proof.
  intros G1 G2. unfold parse_output. rewrite split_tstr by tg. reflexivity.
Qed.

Lemma output_TE (cs : comps) n k j p : good_name n -> gport cs n k p ->
  parse_output cs (tstr (TE n k j)) = Ok (Some (p, Z.of_nat j)).
Proof.
  intros G (c & st & q & A & S & N & ->). unfold parse_output, free_of.
  rewrite split_tstr by tg. cbn [tparts].
  rewrite !py_int_dec_nat, A, S. cbn [option_map of_option bind]. rewrite (py_index_nat N). reflexivity.
Qed.

(** What a list of typed connections means: wires and external numbers. *)
Inductive tmeans (cs : comps) : list tconn -> list (nat * nat) -> list (Z * nat) -> Prop :=
| tm_nil : tmeans cs [] [] []
| tm_wire n1 k1 n2 k2 p1 p2 ts ws es : good_name n1 -> good_name n2 ->
    gport cs n1 k1 p1 -> gport cs n2 k2 p2 -> ~ (n1 = n2 /\ k1 = k2) ->
    tmeans cs ts ws es -> tmeans cs (TW n1 k1 n2 k2 :: ts) ((p1, p2) :: ws) es
| tm_ext n k j p ts ws es : good_name n -> gport cs n k p ->
    tmeans cs ts ws es -> tmeans cs (TE n k j :: ts) ws ((Z.of_nat j, p) :: es).

Lemma tmeans_app (cs : comps) t1 w1 e1 t2 w2 e2 :
  tmeans cs t1 w1 e1 -> tmeans cs t2 w2 e2 -> tmeans cs (t1 ++ t2) (w1 ++ w2) (e1 ++ e2).
Proof. induction 1; cbn; intros; [assumption| |]; econstructor; eauto. Qed.

Lemma tmeans_good (cs : comps) ts ws es : tmeans cs ts ws es -> Forall tgood ts.
Proof. induction 1; constructor; auto; tg. Qed.

Lemma tmeans_wire_list (cs : comps) ts ws es : NoDup (map fst cs) -> tmeans cs ts ws es ->
  wire_list cs (map tstr ts) ws.
Proof.
  intros Hnd. induction 1 as [|n1 k1 n2 k2 p1 p2 ts ws es G1 G2 P1 P2 Hne H IH|n k j p ts ws es G P H IH]; cbn [map].
  - constructor.
  - constructor; [|assumption]. apply parse_Some. now apply parse_TW.
  - apply wl_ext; [|assumption]. rewrite split_tstr by tg. discriminate.
Qed.

Lemma tmeans_ext_list (cs : comps) ts ws es : NoDup (map fst cs) -> tmeans cs ts ws es ->
  ext_list cs (map tstr ts) es.
Proof.
  intros Hnd. induction 1 as [|n1 k1 n2 k2 p1 p2 ts ws es G1 G2 P1 P2 Hne H IH|n k j p ts ws es G P H IH]; cbn [map].
  - constructor.
  - apply el_wire; [|assumption]. rewrite split_tstr by tg. reflexivity.
  - constructor; [|assumption]. apply parse_output_Some; [assumption|]. now apply output_TE.
Qed.

Lemma tmeans_parse (cs : comps) ts ws es : tmeans cs ts ws es ->
  forall conn, In conn (map tstr ts) -> exists o, parse_connection cs conn = Ok o.
Proof.
  induction 1 as [|n1 k1 n2 k2 p1 p2 ts ws es G1 G2 P1 P2 Hne H IH|n k j p ts ws es G P H IH]; cbn [map]; intros conn Hin.
  - destruct Hin.
  - destruct Hin as [<-|Hin]; [eexists; eapply parse_TW; eassumption|auto].
  - destruct Hin as [<-|Hin]; [eexists; eapply parse_TE; eassumption|auto].
Qed.

Lemma build_eq (mods : comps) conns : conns <> [] -> mods <> [] ->
  build x0 d0 mods conns =
  do cs <- select_comps mods (used_names (map clean_conn conns)); net_buf x0 d0 cs (map clean_conn conns).
Proof.
  intros H1 H2. unfold build, set_buffers. destruct conns; [congruence|]. destruct mods; [congruence|].
  cbv zeta. destruct (select_comps _ _); [|reflexivity]. cbn [bind]. destruct (net_buf _ _ _ _); reflexivity.
Qed.

(** Building from typed connections. *)
Theorem tbuild (mods cs : comps) ts ws es :
  ts <> [] -> mods <> [] ->
  select_comps mods (dedup (flat_map tnames ts) []) = Ok cs ->
  tmeans cs ts ws es -> orders_ok cs -> (forall n c, In (n, c) cs -> flags_ok c) ->
  0 < total_ports cs -> numbered es (total_ports cs) ->
  exists b, build x0 d0 mods (map tstr ts) = Ok b /\ net_buf x0 d0 cs (map tstr ts) = Ok b
            /\ NoDup (map fst cs) /\ wire_list cs (map tstr ts) ws /\ ext_list cs (map tstr ts) es.
Proof.
  intros Hts Hm Hsel Hme Ho Hf Hpos Hn.
  assert (Hg : Forall tgood ts) by (eapply tmeans_good; eassumption).
  assert (Hnd : NoDup (map fst cs)).
  { destruct (select_comps_Ok Hsel) as [-> _]. apply dedup_spec. }
  pose proof (tmeans_wire_list Hnd Hme) as Hw. pose proof (tmeans_ext_list Hnd Hme) as He.
  destruct (net_buf_ok x0 d0 Hnd Ho Hf Hpos He Hn (tmeans_parse Hme) Hw) as [b Hb].
  exists b. split; [|auto].
  rewrite build_eq; [|destruct ts; [congruence|discriminate]|assumption].
  rewrite (clean_tstrs Hg), (used_names_tstr Hg), Hsel. exact Hb.
Qed.

End T.
