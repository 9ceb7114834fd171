(** [Network.link] declares exactly the connections of the chain (C01). *)
From Verif Require Import Base PyStr PyStrProofs NetModel NetSpec.
Set Implicit Arguments.
Local Open Scope string_scope.
Local Open Scope list_scope.

Lemma join_concat l : join_colon l = String.concat ":" l.
Proof. induction l as [|a r IH]; [reflexivity|]. destruct r; [reflexivity|].
  change (join_colon (a :: s :: r)) with (a ++ String colon (join_colon (s :: r)))%string. rewrite IH. reflexivity. Qed.

Lemma colon_free_no_colon s : colon_free s -> no_colon s.
Proof.
  unfold colon_free. induction s as [|c r IH]; simpl; [tauto|]. intros H. split.
  - intros ->. apply H. exists "", r. reflexivity.
  - apply IH. intros (a & b & ->). apply H. exists (String c a), b. reflexivity.
Qed.

Lemma no_colon_colon_free s : no_colon s -> colon_free s.
Proof.
  intros H (a & b & ->). induction a as [|c a IH]; simpl in *; [now destruct H as [H _]|tauto].
Qed.

(** Split of the strings the spec writes. *)
Lemma split_concat l : l <> [] -> Forall no_colon l -> split_colon (String.concat ":" l) = l.
Proof. intros. rewrite <- join_concat. now apply split_join. Qed.

Definition parts (p : lpiece) : list string :=
  opt_list (lp_in p) ++ [lp_name p] ++ opt_list (lp_out p).

Definition full (p : lpiece) : piece := [lp_in p; Some (lp_name p); lp_out p].

Section Chain.
Variables (lead : option Z) (ps : list lpiece) (trail : option Z).
Hypothesis Hwf : wf_chain lead ps trail.

Lemma piece_ports p : In p ps -> lp_in p <> None \/ lp_out p <> None.
Proof.
  intros Hin. destruct (In_nth_error _ _ Hin) as [i Hi].
  destruct (lp_out p) eqn:E; [right; discriminate|left].
  destruct (wc_out Hwf _ Hi E) as (_ & _ & H & _). exact H.
Qed.

Lemma piece_no_colon p : In p ps -> Forall no_colon (parts p).
Proof.
  intros Hin. destruct (wc_names Hwf _ Hin) as (Hn & Hi & Ho). unfold parts.
  destruct (lp_in p), (lp_out p); simpl;
    repeat (apply Forall_cons; [apply colon_free_no_colon; auto|]); apply Forall_nil.
Qed.

Lemma piece_split p : In p ps -> split_colon (piece_str p) = parts p.
Proof.
  intros Hin. apply split_concat; [|now apply piece_no_colon].
  intros H. apply app_eq_nil in H. destruct H as [_ H]. discriminate H.
Qed.

Lemma piece_not_int p : In p ps -> py_int (piece_str p) = None.
Proof.
  intros Hin. destruct (piece_ports p Hin) as [H|H]; unfold piece_str.
  - destruct (lp_in p) as [i|]; [|congruence]. cbn [opt_list app].
    change (String.concat ":" (i :: lp_name p :: opt_list (lp_out p)))
      with (i ++ String colon (String.concat ":" (lp_name p :: opt_list (lp_out p))))%string.
    apply py_int_parts2.
  - destruct (lp_out p) as [o|]; [|congruence]. destruct (lp_in p) as [i|]; cbn [opt_list app].
    + change (String.concat ":" [i; lp_name p; o])
        with (i ++ String colon (lp_name p ++ ":" ++ o))%string. apply py_int_parts2.
    + change (String.concat ":" [lp_name p; o])
        with (lp_name p ++ String colon o)%string. apply py_int_parts2.
Qed.

Definition ext_arg (o : option Z) : parg := match o with Some z => PInt z | None => PNone end.
Definition mids := map (fun p => PStr (piece_str p)) ps.

Lemma last_app_nonnil {A} (l1 l2 : list A) d : l2 <> [] -> last (l1 ++ l2) d = last l2 d.
Proof.
  intros H. induction l1 as [|a l1 IH]; [reflexivity|].
  cbn [app last]. destruct (l1 ++ l2) eqn:E; [|exact IH].
  apply app_eq_nil in E. destruct E. congruence.
Qed.

Lemma link_first_ok l r : renders_ext lead l ->
  link_first (l ++ mids ++ r) = Ok (ext_arg lead :: mids ++ r).
Proof.
  intros H. pose proof piece_not_int as Hni.
  inversion H as [H1 H2|H1 H2|z H1 H2|z s Hs H1 H2]; subst; cbn [ext_arg]; try reflexivity.
  - unfold mids. pose proof (wc_nonempty Hwf). destruct ps as [|p q] eqn:E; [congruence|].
    cbn [map app link_first]. rewrite Hni by (left; reflexivity). reflexivity.
  - cbn [app link_first]. rewrite Hs. reflexivity.
Qed.

Lemma ps_snoc : exists qs q, ps = qs ++ [q].
Proof. destruct (exists_last (wc_nonempty Hwf)) as (qs & q & H). eauto. Qed.

Lemma link_last_ok x r : renders_ext trail r ->
  link_last (x :: mids ++ r) = Ok (x :: mids ++ [ext_arg trail]).
Proof.
  intros H.
  assert (Hne : forall y, removelast (x :: mids ++ [y]) = x :: mids).
  { intros y. rewrite app_comm_cons, removelast_app by discriminate. cbn [removelast]. apply app_nil_r. }
  assert (Hl : forall y, last (x :: mids ++ [y]) PNone = y).
  { intros y. rewrite app_comm_cons, last_app_nonnil by discriminate. reflexivity. }
  pose proof piece_not_int as Hni. pose proof ps_snoc as Hsn.
  inversion H as [H1 H2|H1 H2|z H1 H2|z s Hs H1 H2]; subst; cbn [ext_arg]; unfold link_last.
  - rewrite app_nil_r. destruct Hsn as (qs & q & Hq).
    assert (Hm : mids = map (fun p => PStr (piece_str p)) qs ++ [PStr (piece_str q)])
      by (unfold mids; rewrite Hq, map_app; reflexivity).
    rewrite Hm at 1. rewrite app_comm_cons, last_app_nonnil by discriminate. cbn [last].
    rewrite Hni by (rewrite Hq; apply in_or_app; right; left; reflexivity). reflexivity.
  - rewrite Hl. reflexivity.
  - rewrite Hl. reflexivity.
  - rewrite Hl, Hs, Hne. reflexivity.
Qed.

Lemma split_mids : mapM link_split mids = Ok (map (fun p => map Some (parts p)) ps).
Proof.
  unfold mids. assert (H : forall l, incl l ps ->
    mapM link_split (map (fun p => PStr (piece_str p)) l) = Ok (map (fun p => map Some (parts p)) l)).
  { induction l as [|p l IH]; intros Hi; [reflexivity|]. cbn [map mapM link_split bind].
    rewrite piece_split by (apply Hi; left; reflexivity).
    rewrite IH by (intros a Ha; apply Hi; right; exact Ha). reflexivity. }
  apply H. intros a Ha; exact Ha.
Qed.

Lemma parts_full p : lp_in p <> None -> lp_out p <> None -> map Some (parts p) = full p.
Proof. unfold parts, full. destruct (lp_in p), (lp_out p); try congruence. reflexivity. Qed.

Lemma padded :
  (do m1 <- link_pad_first lead (map (fun p => map Some (parts p)) ps); link_pad_last trail m1)
  = Ok (map full ps).
Proof.
  pose proof (wc_nonempty Hwf) as Hne. pose proof (wc_in Hwf) as Hin. pose proof (wc_out Hwf) as Hout.
  destruct ps as [|p r] eqn:E; [congruence|].
  assert (Hp_in : lead <> None -> lp_in p <> None).
  { intros Hl Hn. destruct (Hin 0 p eq_refl Hn). congruence. }
  destruct (exists_last Hne) as (qs & q & Hq).
  assert (Hq_nth : nth_error (p :: r) (length qs) = Some q).
  { rewrite Hq, nth_error_app2, Nat.sub_diag by lia. reflexivity. }
  assert (Hlen : length (p :: r) = S (length qs)) by (rewrite Hq, app_length; simpl; lia).
  (* inner pieces *)
  assert (Hrin : forall x, In x r -> lp_in x <> None).
  { intros x Hx Hn. destruct (In_nth_error _ _ Hx) as [i Hi].
    destruct (Hin (S i) x Hi Hn). discriminate. }
  assert (Hqout : forall x, In x qs -> lp_out x <> None).
  { intros x Hx Hn. destruct (In_nth_error _ _ Hx) as [i Hi].
    assert (Hi' : nth_error (p :: r) i = Some x).
    { rewrite Hq, nth_error_app1; [exact Hi|]. apply nth_error_Some. congruence. }
    destruct (Hout i x Hi' Hn) as [Hl _]. assert (i < length qs) by (apply nth_error_Some; congruence). lia. }
  (* first padding *)
  set (h p := if match lp_in p with None => true | _ => false end then None :: map Some (parts p)
              else map Some (parts p)).
  assert (H1 : link_pad_first lead (map (fun p => map Some (parts p)) (p :: r))
               = Ok (h p :: map (fun p => map Some (parts p)) r)).
  { unfold h, link_pad_first. destruct lead as [z|].
    - destruct (lp_in p) eqn:Ei; [reflexivity|]. exfalso. now apply Hp_in.
    - cbn [map]. destruct (lp_in p) as [i|] eqn:Ei.
      + destruct (lp_out p) as [o|] eqn:Eo.
        * unfold parts at 1. rewrite Ei, Eo. cbn. unfold parts. rewrite Ei, Eo. reflexivity.
        * destruct (Hout 0 p eq_refl Eo) as (Hl & _ & _ & [Hl'|Hl']); [simpl in Hl, Hl'; lia|congruence].
      + destruct (lp_out p) as [o|] eqn:Eo.
        * unfold parts at 1. rewrite Ei, Eo. cbn. reflexivity.
        * destruct (Hout 0 p eq_refl Eo) as (_ & _ & Hl & _). congruence. }
  rewrite H1. cbn [bind]. unfold link_pad_last.
  (* second padding *)
  assert (Hh : lp_out p <> None -> h p = full p).
  { intros Ho. unfold h. destruct (lp_in p) eqn:Ei.
    - rewrite parts_full by congruence. reflexivity.
    - unfold parts, full. rewrite Ei. destruct (lp_out p); [reflexivity|congruence]. }
  assert (Hr : forall l, (forall x, In x l -> In x r) -> (forall x, In x l -> lp_out x <> None) ->
             map (fun p => map Some (parts p)) l = map full l).
  { intros l Hi Ho. apply map_ext_in. intros a Ha. apply parts_full; auto. }
  destruct trail as [z|] eqn:Et.
  - assert (Hall : forall x, In x (p :: r) -> lp_out x <> None).
    { intros x Hx Hn. destruct (In_nth_error _ _ Hx) as [i Hi].
      destruct (Hout i x Hi Hn) as (_ & Hz & _). discriminate. }
    rewrite Hh by (apply Hall; left; reflexivity). cbn [map].
    rewrite Hr; [reflexivity|auto|]. intros x Hx. apply Hall. right. exact Hx.
  - destruct qs as [|q0 qs0].
    + (* single piece *)
      assert (r = [] /\ q = p) as [-> ->] by (inversion Hq; split; congruence).
      cbn [map last removelast app].
      destruct (lp_out p) as [o|] eqn:Eo.
      * rewrite Hh by congruence. cbn. reflexivity.
      * destruct (Hout 0 p eq_refl Eo) as (_ & _ & Hi & [Hx|Hx]); [simpl in Hx; lia|].
        unfold h. destruct (lp_in p) as [i|] eqn:Ei; [|congruence].
        unfold parts, full. rewrite Ei, Eo. reflexivity.
    + assert (q0 = p /\ r = qs0 ++ [q]) as [-> ->] by (inversion Hq; split; congruence).
      rewrite Hh by (apply Hqout; left; reflexivity).
      rewrite map_app. cbn [map].
      rewrite app_comm_cons, last_app_nonnil by discriminate. cbn [last].
      rewrite Hr; [|intros x Hx; apply in_or_app; left; exact Hx|intros x Hx; apply Hqout; right; exact Hx].
      rewrite removelast_app by discriminate. cbn [removelast]. rewrite app_nil_r.
      assert (Hqi : lp_in q <> None) by (apply Hrin, in_or_app; right; left; reflexivity).
      rewrite map_app. cbn [map]. assert (Hf : full q = [lp_in q; Some (lp_name q); lp_out q]) by reflexivity.
      rewrite Hf. unfold parts.
      destruct (lp_in q) as [i|]; [|congruence]. destruct (lp_out q) as [o|]; reflexivity.
Qed.

Lemma conn4_str a b c d :
  conn4 (Some a) (Some b) (Some c) (Some d) = decl_str (Wire a b c d).
Proof. reflexivity. Qed.
Lemma conn3_str a b z : conn3 (Some a) (Some b) z = decl_str (Ext a b z).
Proof. reflexivity. Qed.

Lemma pairs_ok : link_pairs (map full ps) = (map decl_str (chain_wires ps), None).
Proof.
  assert (H : forall l, (forall i p q, nth_error l i = Some p -> nth_error l (S i) = Some q ->
                          lp_out p <> None /\ lp_in q <> None) ->
    link_pairs (map full l) = (map decl_str (chain_wires l), None)).
  { induction l as [|p l IH]; intros Hl; [reflexivity|]. destruct l as [|q r]; [reflexivity|].
    specialize (IH (fun i a b Ha Hb => Hl (S i) a b Ha Hb)).
    destruct (Hl 0 p q eq_refl eq_refl) as [Ho Hi].
    change (link_pairs (map full (p :: q :: r))) with
      (let '(cs, e) := link_pairs (map full (q :: r)) in
       (conn4 (Some (lp_name p)) (lp_out p) (Some (lp_name q)) (lp_in q) :: cs, e)).
    rewrite IH. cbn [chain_wires]. destruct (lp_out p); [|congruence]. destruct (lp_in q); [|congruence].
    rewrite conn4_str. reflexivity. }
  apply H. intros i p q Hp Hq. split; intros Hn.
  - destruct (wc_out Hwf _ Hp Hn) as [Hl _].
    assert (S i < length ps) by (apply nth_error_Some; congruence). lia.
  - destruct (wc_in Hwf _ Hq Hn). discriminate.
Qed.

Theorem link_strings_chain l r : renders_ext lead l -> renders_ext trail r ->
  link_strings (l ++ map (fun p => PStr (piece_str p)) ps ++ r)
  = (map decl_str (chain_decls lead ps trail), None).
Proof.
  intros Hl Hr. unfold link_strings. fold mids. rewrite link_first_ok by assumption. cbn [bind].
  rewrite link_last_ok by assumption. cbn [tl hd].
  rewrite removelast_app by discriminate. cbn [removelast]. rewrite app_nil_r, split_mids.
  rewrite app_comm_cons, last_app_nonnil by discriminate. cbn [last].
  replace (parg_int (ext_arg lead)) with lead by (destruct lead; reflexivity).
  replace (parg_int (ext_arg trail)) with trail by (destruct trail; reflexivity).
  rewrite padded. rewrite pairs_ok.
  pose proof (wc_nonempty Hwf) as Hne. pose proof (wc_in Hwf) as Hin. pose proof (wc_out Hwf) as Hout.
  destruct ps_snoc as (qs & q & Hq).
  assert (Hlast : last (map full ps) [] = full q).
  { rewrite Hq, map_app, last_app_nonnil by discriminate. reflexivity. }
  assert (Hrev : chain_trail trail ps =
    match trail with Some z => match lp_out q with Some o => [Ext (lp_name q) o z] | None => [] end | None => [] end).
  { unfold chain_trail. rewrite Hq, rev_app_distr. destruct trail; reflexivity. }
  assert (Hqn : nth_error ps (length qs) = Some q)
    by (rewrite Hq, nth_error_app2, Nat.sub_diag by lia; reflexivity).
  rewrite Hlast. unfold chain_decls. rewrite Hrev, !map_app.
  clear Hrev Hlast. destruct ps as [|p t] eqn:E; [congruence|].
  cbn [map full chain_lead].
  assert (Hx : link_ext lead (lp_in p) (Some (lp_name p)) = (map decl_str (chain_lead lead (p :: t)), None)).
  { unfold link_ext, chain_lead. destruct lead as [z|]; [|reflexivity].
    destruct (lp_in p) eqn:Ei; [reflexivity|]. destruct (Hin 0 p eq_refl Ei); discriminate. }
  rewrite Hx.
  assert (Hy : link_ext trail (lp_out q) (Some (lp_name q)) =
    (map decl_str match trail with Some z => match lp_out q with Some o => [Ext (lp_name q) o z] | None => [] end | None => [] end, None)).
  { unfold link_ext. destruct trail as [z|]; [|reflexivity].
    destruct (lp_out q) eqn:Eo; [reflexivity|]. destruct (Hout _ _ Hqn Eo) as (_ & H & _); discriminate. }
  rewrite Hy. reflexivity.
Qed.

(** Reading the declared connections back. *)
Theorem decl_read_back d : In d (chain_decls lead ps trail) ->
  split_colon (decl_str d) = decl_parts d
  /\ match d with Ext _ _ z => py_int (dec_Z z) = Some z | _ => True end.
Proof.
  intros Hd. split.
  - apply split_concat; [destruct d; discriminate|].
    assert (Hps : forall p, In p ps -> no_colon (lp_name p)
        /\ (forall s, lp_in p = Some s -> no_colon s) /\ (forall s, lp_out p = Some s -> no_colon s)).
    { intros p Hp. destruct (wc_names Hwf _ Hp) as (H1 & H2 & H3).
      repeat split; intros; apply colon_free_no_colon; auto. }
    unfold chain_decls in Hd. apply in_app_or in Hd. destruct Hd as [Hd|Hd].
    + assert (Hw : forall l, incl l ps -> In d (chain_wires l) -> Forall no_colon (decl_parts d)).
      { induction l as [|p l IH]; intros Hi; [intros []|]. destruct l as [|q t]; [intros []|].
        assert (Hi' : incl (q :: t) ps) by (intros a Ha; apply Hi; right; exact Ha).
        cbn [chain_wires].
        destruct (Hps p (Hi p (or_introl eq_refl))) as (A1 & A2 & A3).
        destruct (Hps q (Hi' q (or_introl eq_refl))) as (B1 & B2 & B3).
        destruct (lp_out p) as [o|]; [|now apply IH]. destruct (lp_in q) as [i|]; [|now apply IH].
        intros [<-|H]; [|now apply IH]. cbn [decl_parts].
        repeat (apply Forall_cons; [solve [auto]|]). apply Forall_nil. }
      apply (Hw ps); [intros a Ha; exact Ha|exact Hd].
    + apply in_app_or in Hd. destruct Hd as [Hd|Hd].
      * unfold chain_lead in Hd. destruct lead as [z|]; [|destruct Hd].
        destruct ps as [|p t]; [destruct Hd|]. destruct (lp_in p) as [i|] eqn:Ei; [|destruct Hd].
        destruct Hd as [<-|[]]. destruct (Hps p (or_introl eq_refl)) as (A1 & A2 & A3).
        repeat (apply Forall_cons; [solve [auto | apply dec_Z_no_colon]|]). apply Forall_nil.
      * unfold chain_trail in Hd. destruct trail as [z|]; [|destruct Hd].
        destruct (rev ps) as [|p t] eqn:Er; [destruct Hd|]. destruct (lp_out p) as [i|] eqn:Ei; [|destruct Hd].
        destruct Hd as [<-|[]]. assert (Hp : In p ps) by (apply in_rev; rewrite Er; left; reflexivity).
        destruct (Hps p Hp) as (A1 & A2 & A3).
        repeat (apply Forall_cons; [solve [auto | apply dec_Z_no_colon]|]). apply Forall_nil.
  - destruct d; [exact I|]. apply py_int_dec_Z.
Qed.

End Chain.
