(** Components bear the key under which they are used, as long as no object is used under two keys. *)
From Verif Require Import Base PyStr NetModel NetSpec NetProofs ObjModel ObjProofs ObjNames.
Set Implicit Arguments.
Unset Strict Implicit.
Local Open Scope list_scope.
Local Open Scope nat_scope.

Section Keys.
Variables (X D : Type) (x0 : X) (d0 : D).
Variable reserved : string -> bool.
Variable limit : nat.
Notation state := (state X D).
Notation obj := (obj X D).
Notation add_comp := (@add_comp X D reserved).
Notation register := (@register X D reserved).
Notation refresh := (@refresh X D x0 d0 limit).
Notation new_comp := (@new_comp X D reserved).
Notation new_net := (@new_net X D x0 d0 reserved limit).
Notation terminate := (@terminate X D x0 d0 reserved limit).
Notation step := (@step X D x0 d0 reserved limit).

Definition uses (s : state) (l : nat) (k : string) (t : nat) : Prop :=
  exists n c cs f sh, nth_error (st_objs s) l = Some (ONet n c cs f sh) /\ In (k, t) cs.
Definition keyed (s : state) : Prop := forall l k t, uses s l k t -> exists o, nth_error (st_objs s) t = Some o /\ name_of o = Some k.
Definition one_key (s : state) : Prop := forall l k l' k' t, uses s l k t -> uses s l' k' t -> k = k'.

Lemma keyed_same (s s' : state) : st_objs s' = st_objs s -> keyed s -> keyed s'.
Proof. intros E K l k t (n & c & cs & f & sh & H & Hin). rewrite E in *. apply (K l k t). exists n, c, cs, f, sh. auto. Qed.
Lemma one_key_same (s s' : state) : st_objs s' = st_objs s -> one_key s -> one_key s'.
Proof.
  intros E K l k l' k' t (n & c & cs & f & sh & H & Hin) (n1 & c1 & cs1 & f1 & sh1 & H1 & Hin1). rewrite E in *.
  apply (K l k l' k' t); repeat eexists; eassumption.
Qed.
(** New objects whose components are used under the same keys elsewhere. *)
Lemma keyed_alloc (s : state) o : keyed s ->
  match o with OComp _ _ => True | ONet _ _ cs _ _ => forall k t, In (k, t) cs -> exists l, uses s l k t end -> keyed (fst (alloc s o)).
Proof.
  intros K Ho l k t (n & c & cs & f & sh & H & Hin). cbn [alloc fst st_objs] in *.
  assert (Q : exists l, uses s l k t).
  { destruct (Nat.lt_ge_cases l (length (st_objs s))) as [Hl|Hl].
    - rewrite nth_error_app1 in H by exact Hl. exists l. repeat eexists; eassumption.
    - rewrite nth_error_app2 in H by exact Hl. destruct (l - length (st_objs s)) as [|m]; [|destruct m; discriminate]. injection H as ->. exact (Ho k t Hin). }
  destruct Q as [l' Q]. destruct (K _ _ _ Q) as (o' & H' & N). exists o'. split; [|exact N]. rewrite nth_error_app1; [exact H'|eapply nth_in_range, H'].
Qed.

Lemma renames_some cs : forall (s : state) k t o, In (k, t) cs -> nth_error (st_objs s) t = Some o ->
  exists k' o', In (k', t) cs /\ nth_error (st_objs (renames s cs)) t = Some o' /\ name_of o' = Some k'.
Proof. clear x0 d0 limit reserved.
  induction cs as [|[m q] cs IH]; intros s k t o Hin Ho; [contradiction|]. change (renames s ((m, q) :: cs)) with (renames (rename s q m) cs).
  assert (D1 : {exists k', In (k', t) cs} + {forall k', ~ In (k', t) cs}).
  { clear. induction cs as [|[a b] cs IH]; [right; intros k' []|]. destruct (Nat.eq_dec b t) as [->|N]; [left; exists a; now left|].
    destruct IH as [I|I]; [left; destruct I as [k' I]; exists k'; now right|right; intros k' [Q|Q]; [congruence|exact (I k' Q)]]. }
  assert (H1 : exists o1, nth_error (st_objs (rename s q m)) t = Some o1 /\ (q = t -> name_of o1 = Some m)).
  { rewrite rename_objs. destruct (Nat.eqb_spec q t) as [->|N]; [rewrite Ho; cbn; eexists; split; [reflexivity|intros _; apply with_name_skel]|exists o; split; [exact Ho|congruence]]. }
  destruct H1 as (o1 & Ho1 & N1). destruct D1 as [[k' I]|I].
  - destruct (IH (rename s q m) k' t o1 I Ho1) as (k2 & o2 & A & B & C). exists k2, o2. split; [now right|auto].
  - destruct Hin as [Q|Q]; [|destruct (I k Q)]. injection Q as -> ->. exists k, o1. split; [now left|]. split; [|apply N1; reflexivity].
    rewrite renames_other; [exact Ho1|exact I].
Qed.

Lemma refresh_keyed s l s' : keyed s -> refresh s l = Ok s' -> one_key s' -> keyed s'.
Proof.
  intros K H OK. destruct (refresh_inv H) as (n & c & cs0 & f & sh & E & [[-> _]|(cs & n' & b & s3 & _ & _ & _ & E3 & Hn & Hc & _ & E')]); [exact K|].
  destruct (renames_frame cs s) as (F & R1 & R2 & R3). pose proof (nth_in_range E) as Ll.
  assert (L3 : length (st_objs s3) = length (st_objs s)) by (rewrite E3; cbn [put_obj put_sh st_objs]; now rewrite set_nth_length).
  assert (E3' : nth_error (st_objs s3) l = Some (ONet n' c cs f sh)) by (rewrite E3; cbn [put_obj put_sh st_objs]; apply put_nth; rewrite R3; exact Ll).
  assert (El : nth_error (st_objs s') l = Some (ONet n' c cs (Some (num_free b)) sh)) by (rewrite E'; cbn [put_obj put_sh st_objs]; apply put_nth; rewrite L3; exact Ll).
  assert (Eo : forall k, k <> l -> nth_error (st_objs s') k = nth_error (st_objs (renames s cs)) k).
  { intros k Hk. rewrite E'. cbn [put_obj put_sh st_objs]. rewrite nth_error_set_nth. destruct (Nat.eqb_spec l k); [congruence|]. rewrite E3. cbn [put_obj put_sh st_objs].
    rewrite nth_error_set_nth. destruct (Nat.eqb_spec l k); [congruence|reflexivity]. }
  assert (Nm : forall t o, nth_error (st_objs (renames s cs)) t = Some o -> exists o', nth_error (st_objs s') t = Some o' /\ name_of o' = name_of o).
  { intros t o Ho. destruct (Nat.eq_dec t l) as [->|Ht]; [|exists o; rewrite Eo by exact Ht; auto]. rewrite Hn in Ho. injection Ho as <-. eexists. split; [exact El|reflexivity]. }
  (* names of the components of l *)
  assert (New : forall k t, In (k, t) cs -> exists o, nth_error (st_objs s') t = Some o /\ name_of o = Some k).
  { intros k t Hin. destruct (current_child E3' Hc Hin) as (f' & bt & _ & _ & Ht & _). apply current_exists in Ht as (o3 & Ho3).
    destruct (nth_error (st_objs s) t) as [o|] eqn:Et; [|apply nth_error_None in Et; apply nth_in_range in Ho3; lia].
    destruct (renames_some Hin Et) as (k' & o' & Hin' & Ho' & N'). destruct (Nm _ _ Ho') as (o2 & Ho2 & N2). exists o2. split; [exact Ho2|]. rewrite N2, N'. f_equal.
    apply (OK l k' l k t); repeat eexists; eassumption. }
  intros p k t U. pose proof U as (n1 & c1 & cs1 & f1 & sh1 & Hp & Hin). destruct (Nat.eq_dec p l) as [->|Hp'].
  { rewrite El in Hp. injection Hp as <- <- <- <- <-. now apply New. }
  assert (U0 : uses s p k t).
  { rewrite Eo in Hp by exact Hp'. destruct (nth_error (st_objs s) p) as [o|] eqn:Ep; [|apply nth_error_None in Ep; apply nth_in_range in Hp; lia].
    destruct (fr_obj F Ep) as (o' & Ho' & _ & _ & [Q|Q]); [|discriminate]. rewrite Hp in Ho'. injection Ho' as <-. destruct o as [|n2 c2 cs2 f2 sh2]; [discriminate|].
    cbn in Q. injection Q as <- <- <- <-. repeat eexists; eassumption. }
  destruct (K _ _ _ U0) as (o & Ho & No).
  assert (D1 : {exists k', In (k', t) cs} + {forall k', ~ In (k', t) cs}).
  { clear. induction cs as [|[a b] cs IH]; [right; intros k' []|]. destruct (Nat.eq_dec b t) as [->|N]; [left; exists a; now left|].
    destruct IH as [I|I]; [left; destruct I as [k' I]; exists k'; now right|right; intros k' [Q|Q]; [congruence|exact (I k' Q)]]. }
  destruct D1 as [[k' I]|I].
  - destruct (New k' t I) as (o' & Ho' & N'). exists o'. split; [exact Ho'|]. rewrite N'. f_equal. apply (OK l k' p k t); [|exact U]. repeat eexists; eassumption.
  - destruct (Nm t o) as (o' & Ho' & N'); [rewrite renames_other; assumption|]. exists o'. split; [exact Ho'|congruence].
Qed.

Lemma new_net_keyed s name cls cs conns s' l : good s -> keyed s -> new_net s name cls cs conns = Ok (s', l) -> one_key s' -> keyed s'.
Proof.
  intros G K H OK. destruct (new_net_before G H) as (-> & s2 & _ & _ & O2 & _ & _ & Hr). eapply refresh_keyed; [|exact Hr|exact OK].
  eapply keyed_same; [|apply (@keyed_alloc s (ONet name cls [] None (length (st_sh s))) K); intros k t []]. exact O2.
Qed.
Lemma new_comp_keyed s name b s' l : good s -> keyed s -> new_comp s name b = Ok (s', l) -> keyed s'.
Proof.
  intros G K H. destruct (new_comp_ok G H) as (_ & _ & _ & O & _). eapply keyed_same; [|apply (@keyed_alloc s (OComp name b) K I)]. exact O.
Qed.
Lemma copy_terms_keyed ts : forall (s : state) d s' d', keyed s -> copy_terms s ts d = Ok (s', d') -> keyed s'.
Proof. clear x0 d0 limit reserved.
  induction ts as [|t r IH]; intros s d s' d' K H; cbn [copy_terms] in H; [injection H as <- <-; exact K|].
  destruct (get s t) as [o|]; [|discriminate]. cbn [bind] in H. destruct o as [[n|] b|]; try discriminate. cbn [alloc] in H.
  eapply IH; [|exact H]. apply (@keyed_alloc s (OComp (Some n) b) K I).
Qed.
Lemma new_terms_keyed s tcls t n s' ts : good s -> keyed s -> new_terms reserved s tcls t n = Ok (s', ts) -> keyed s'.
Proof.
  intros G K H. unfold new_terms in H.
  apply (@foldM_inv _ _ _ (fun a => good (fst a) /\ keyed (fst a)) _ _ _ H); [split; assumption|].
  intros e [a1 l1] [a2 l2] _ (Ha1 & Ha2) Hs. cbn [fst snd] in *. destruct (new_comp a1 (Some e) t) as [[b1 c1]|] eqn:E; [|discriminate]. cbn [bind] in Hs. injection Hs as <- <-.
  destruct (new_comp_ok Ha1 E) as (_ & G' & _). split; [exact G'|]. exact (new_comp_keyed Ha1 Ha2 E).
Qed.
Lemma terminate_keyed s l arg ts s' nw : good s -> keyed s -> terminate s l arg ts = Ok (s', nw) -> one_key s' -> keyed s'.
Proof.
  intros G K H OK. unfold ObjModel.terminate in H. destruct (get_net s l) as [[[[[own cls] cs] f] sh]|] eqn:E; [|discriminate]. cbn [bind] in H. apply get_net_inv in E.
  destruct f as [n|]; [|discriminate]. cbn [of_option bind] in H. destruct (n =? 0); [discriminate|].
  destruct (copy_terms s ts []) as [[s1 d]|] eqn:E1; [|discriminate]. cbn [bind] in H. destruct (copy_terms_ok x0 d0 reserved limit G E1) as (C1 & G1 & _ & L1 & more & O1).
  pose proof (copy_terms_keyed K E1) as K1.
  destruct (alloc s1 _) as [s2 c] eqn:E2. set (o := ONet (Some (copied_name own cls)) cls cs (Some n) sh) in *. pose proof (f_equal fst E2) as E2'. cbn [fst] in E2'.
  assert (El : nth_error (st_objs s1) l = Some (ONet own cls cs (Some n) sh)) by (rewrite O1, nth_error_app1; [exact E|eapply nth_in_range, E]).
  assert (G2 : good s2).
  { rewrite <- E2'. apply (good_alloc (o := o) G1). split; [eapply (proj1 G1); [exact El|reflexivity]|]. intros k t Hin. eapply (proj1 (proj2 G1)); eassumption. }
  assert (K2 : keyed s2).
  { rewrite <- E2'. apply (@keyed_alloc s1 o K1). intros k t Hin. exists l. repeat eexists; eassumption. }
  destruct (new_net s2 _ _ _ _) as [[s3 nw1]|] eqn:E3; [|discriminate]. cbn [bind] in H.
  destruct (add_comp s3 nw1 "base" l) as [s4|] eqn:E4; [|discriminate]. cbn [bind] in H. injection H as <- <-. destruct (add_comp_calm E4) as (_ & O4 & _).
  eapply keyed_same; [exact O4|]. eapply new_net_keyed; [exact G2|exact K2|exact E3|]. eapply one_key_same; [symmetry; exact O4|exact OK].
Qed.
Lemma link_keyed s l ports s' : keyed s -> link_net x0 d0 limit s l ports = Ok s' -> one_key s' -> keyed s'.
Proof.
  intros K H OK. unfold link_net in H. destruct (get_net s l) as [[[[[n c] cs] f] sh]|] eqn:E; [|discriminate]. cbn [bind] in H.
  destruct (link_strings ports) as [conns [e|]]; [discriminate|]. eapply refresh_keyed; [|exact H|exact OK]. eapply keyed_same; [|exact K]. reflexivity.
Qed.
Lemma step_keyed s p s' : good s -> keyed s -> step s p = Ok s' -> one_key s' -> keyed s'.
Proof.
  intros G K H OK. destruct p as [name b|name cls cs conns|net key c|net ports|ports|net arg ts|net arg tcls t|net|]; cbn [ObjModel.step] in H.
  - destruct (new_comp s name b) as [[s1 l]|] eqn:E; [|discriminate]. injection H as <-. eapply new_comp_keyed; eassumption.
  - destruct (new_net s name cls cs conns) as [[s1 l]|] eqn:E; [|discriminate]. injection H as <-. eapply new_net_keyed; eassumption.
  - destruct (add_comp_calm H) as (_ & O & _). eapply keyed_same; eassumption.
  - eapply link_keyed; eassumption.
  - destruct (st_stack s); [discriminate|]. eapply link_keyed; eassumption.
  - destruct (terminate s net arg ts) as [[s1 l]|] eqn:E; [|discriminate]. injection H as <-. eapply terminate_keyed; eassumption.
  - destruct (get_net s net) as [[[[[n0 c0] cs0] f0] sh0]|] eqn:E0; [|discriminate]. cbn [bind] in H. destruct f0 as [n|]; [|discriminate]. cbn [of_option bind] in H.
    destruct (n =? 0); [discriminate|]. destruct (new_terms reserved s tcls t n) as [[s1 ts]|] eqn:E1; [|discriminate]. cbn [bind] in H.
    destruct (new_terms_ok x0 d0 limit G E1) as (C1 & G1 & _). pose proof (new_terms_keyed G K E1) as K1.
    destruct (terminate s1 net arg ts) as [[s2 l]|] eqn:E2; [|discriminate]. injection H as <-. eapply terminate_keyed; eassumption.
  - destruct (get_net s net) as [?|]; [|discriminate]. cbn [bind] in H. injection H as <-. eapply keyed_same; [|exact K]. reflexivity.
  - destruct (st_stack s); [discriminate|]. injection H as <-. eapply keyed_same; [|exact K]. reflexivity.
Qed.
Lemma keyed_start : keyed (start X D). Proof. intros l k t (n & c & cs & f & sh & H & _). destruct l; discriminate. Qed.
End Keys.
