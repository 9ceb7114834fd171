(** Networks that agree with their parts have the buffers of the circuit they stand for. *)
From Verif Require Import Base PyStr NetModel NetSpec NetProofs WireProofs StateProofs NetBuild ObjModel ObjProofs ObjSpec.
Set Implicit Arguments.
Unset Strict Implicit.
Local Open Scope list_scope.
Local Open Scope nat_scope.

Section Tree.
Variables (X D : Type) (x0 : X) (d0 : D).
Variable limit : nat.
Notation state := (state X D).
Notation buf := (buf X D).
Notation comps := (list (string * buf)).
Notation current := (@current X D x0 d0).
Notation filled := (@filled X D x0 d0).

Lemma wire_of_same (cs : comps) conn : wire_of cs cs conn = parse_connection cs conn.
Proof. reflexivity. Qed.
Lemma wiring_same (cs : comps) conns C : wiring cs cs conns = Ok C -> net_C cs conns = Ok C.
Proof.
  unfold wiring, net_C. generalize (block_mat (@b_C X D) false cs). induction conns as [|c r IH]; intros M H; cbn [foldM] in *; [exact H|].
  rewrite wire_of_same in H. destruct (parse_connection cs c) as [o|]; [|discriminate]. cbn [bind] in *.
  destruct o as [[i j]|]; cbn [bind] in *; [|now apply IH]. destruct ((i <? _) && _); [|discriminate]. cbn [bind] in *. now apply IH.
Qed.
Lemma ordering_same (cs : comps) conns : ordering cs cs conns = net_order cs conns.
Proof. reflexivity. Qed.
Lemma filled_same (cs : comps) conns b : filled cs cs conns = Ok b -> check_buf true b = Ok b -> net_buf x0 d0 cs conns = Ok b.
Proof.
  unfold ObjModel.filled, net_buf. rewrite ordering_same. destruct (net_order cs conns) as [o|]; [|discriminate]. cbn [bind].
  destruct (wiring cs cs conns) as [C|] eqn:E; [|discriminate]. rewrite (wiring_same E). cbn [bind]. intros H Hc. injection H as <-. exact Hc.
Qed.

Lemma mapM_cons A B (f : A -> res B) a l r : mapM f (a :: l) = Ok r -> exists b bs, f a = Ok b /\ mapM f l = Ok bs /\ r = b :: bs.
Proof. cbn. destruct (f a) as [b|]; [|discriminate]. cbn. destruct (mapM f l) as [bs|]; [|discriminate]. cbn. intros H. injection H as <-. eauto. Qed.

Lemma select_self (cs : comps) : NoDup (map fst cs) -> select_comps cs (map fst cs) = Ok cs.
Proof.
  intros Hn. unfold select_comps.
  assert (H : forall pre, NoDup (map fst (pre ++ cs)) -> mapM (fun n => do b <- of_option KeyError (assoc String.eqb n (pre ++ cs)); Ok (n, b)) (map fst cs) = Ok cs).
  { clear Hn. induction cs as [|[n b] r IH]; intros pre Hn; [reflexivity|]. cbn [map mapM fst].
    assert (E : assoc String.eqb n (pre ++ (n, b) :: r) = Some b).
    { clear IH. induction pre as [|[m c] pre IHp]; cbn [app assoc]; [now rewrite String.eqb_refl|]. cbn [app map fst] in Hn. inversion_clear Hn as [|? ? Hni Hn'].
      destruct (String.eqb_spec n m) as [->|_]; [|apply IHp; exact Hn']. exfalso. apply Hni. rewrite map_app. apply in_or_app. right. now left. }
    rewrite E. cbn [of_option bind]. specialize (IH (pre ++ [(n, b)])). rewrite <- app_assoc in IH. cbn [app] in IH. rewrite (IH Hn). reflexivity. }
  apply (H []). exact Hn.
Qed.

Lemma build_self (cs : comps) conns b : conns <> [] -> cs <> [] -> map fst cs = used_names conns -> map clean_conn conns = conns ->
  net_buf x0 d0 cs conns = Ok b -> build x0 d0 cs conns = Ok b.
Proof.
  intros H1 H2 H3 H4 H5. unfold build, set_buffers. destruct conns as [|q r] eqn:E; [contradiction|]. rewrite <- E in *. destruct cs as [|p cs'] eqn:E2; [contradiction|]. rewrite <- E2 in *.
  rewrite H4, <- H3, select_self by (rewrite H3; apply used_names_NoDup). cbn [bind]. rewrite H5. reflexivity.
Qed.

Lemma filled_none conns b : conns <> [] -> filled [] [] conns <> Ok b.
Proof.
  destruct conns as [|c r]; [contradiction|]. intros _. unfold ObjModel.filled, ordering, wiring. cbn [foldM]. unfold output_of, wire_of.
  destruct (split_colon c) as [|a1 [|a2 [|a3 [|a4 [|a5 a]]]]]; try discriminate.
  - destruct (py_int a2); [|discriminate]. cbn [of_option bind]. destruct (py_int a3); discriminate.
  - match goal with |- bind (bind ?q _) _ <> _ => destruct q as [d|]; [|discriminate] end. cbn [bind].
    match goal with |- bind ?q _ <> _ => destruct q as [o|]; [|discriminate] end. cbn [bind].
    destruct (py_int a2); [|discriminate]. cbn [of_option bind]. destruct (py_int a4); [|discriminate]. cbn [of_option bind]. destruct (_ && _); discriminate.
Qed.

Section State.
Variable s : state.
Hypothesis G : good s.
Hypothesis A : agree x0 d0 limit s.

(** Children: what they fill in now is what they have stored. *)
Lemma stored_current l f b : current f s l = Ok b -> forall b', stored s l = Ok b' -> b = b'.
Proof.
  intros Hc b' Hs. unfold stored in Hs. destruct (get s l) as [o|] eqn:E; [|discriminate]. cbn [bind] in Hs. apply get_inv in E. destruct o as [n b1|n c cs fr sh].
  - injection Hs as ->. destruct f as [|f]; [discriminate|]. cbn [ObjModel.current] in Hc. rewrite (proj2 (get_inv s l _) E) in Hc. cbn [bind] in Hc. congruence.
  - destruct (sh_buf (get_sh s sh)) as [b1|] eqn:Eb; [|discriminate]. injection Hs as ->. destruct (A E Eb) as (_ & _ & _ & _ & Hc' & _). eapply current_fun; eassumption.
Qed.

Lemma unfolds_exists f : forall l b, current f s l = Ok b -> stored s l = Ok b -> exists t, unfolds s l t /\ compile x0 d0 t = Ok b.
Proof.
  induction f as [|f IH]; intros l b Hc Hs; [discriminate|]. pose proof Hs as Hs0. unfold stored in Hs. destruct (get s l) as [o|] eqn:E; [|discriminate]. cbn [bind] in Hs. apply get_inv in E.
  destruct o as [n b1|n c cs fr sh].
  { injection Hs as ->. exists (Leaf b). split; [eapply un_leaf; exact E|]. cbn [compile]. eapply (proj2 (proj2 G)), E. }
  destruct (sh_buf (get_sh s sh)) as [b1|] eqn:Eb; [|discriminate]. injection Hs as ->.
  destruct (A E Eb) as (A1 & A2 & A3 & A4 & _ & A6).
  destruct (current_net E Hc) as (f' & re & st & Ef & M1 & M2 & M3). injection Ef as <-.
  assert (T : exists ts, unfolds_all s cs ts /\ re = st /\ map fst re = map fst cs
    /\ (fix go l := match l with [] => Ok [] | (n, c') :: r => do b <- compile x0 d0 c'; do bs <- go r; Ok ((n, b) :: bs) end) ts = Ok re).
  { clear M3 A1 A2 A3 A4 E Hc Hs0. revert re st M1 M2. induction cs as [|[k t] cs IHc]; intros re st M1 M2.
    - cbn in M1, M2. injection M1 as <-. injection M2 as <-. exists []. repeat split. constructor.
    - apply mapM_cons in M1 as (r1 & rs & H1 & H1' & ->). apply mapM_cons in M2 as (s1 & ss & H2 & H2' & ->). cbn [fst snd] in H1, H2.
      destruct (current f s t) as [bt|] eqn:Et; [|discriminate]. cbn [bind] in H1. injection H1 as <-. destruct (stored s t) as [bs|] eqn:Es; [|discriminate]. cbn [bind] in H2. injection H2 as <-.
      pose proof (stored_current Et Es) as <-. destruct (IH t bt Et Es) as (tt' & Ht & Hk). destruct (IHc _ _ H1' H2') as (ts & T1 & <- & T3 & T4).
      exists ((k, tt') :: ts). split; [constructor; assumption|]. split; [reflexivity|]. split; [cbn; now rewrite T3|]. rewrite Hk. cbn [bind]. rewrite T4. reflexivity. }
  destruct T as (ts & T1 & <- & T3 & T4). exists (Net ts (sh_conns (get_sh s sh))). split.
  - eapply un_net; [|exact T1]. exists n, c, fr, sh, (get_sh s sh). split; [exact E|]. split; [|reflexivity]. unfold get_sh. apply nth_error_nth'. eapply (proj1 G); [exact E|reflexivity].
  - cbn [compile]. rewrite T4. cbn [bind]. apply build_self; [exact A1| |now rewrite T3|exact A4|apply filled_same; assumption].
    intros ->. elim (@filled_none _ _ A1 M3).
Qed.

Lemma stored_unfolds l b : stored s l = Ok b -> exists t, unfolds s l t /\ compile x0 d0 t = Ok b.
Proof.
  intros H. assert (Hc : exists f, current f s l = Ok b); [|destruct Hc as [f Hc]; eapply unfolds_exists; eassumption].
  unfold stored in H. destruct (get s l) as [o|] eqn:E; [|discriminate]. cbn [bind] in H. pose proof E as E0. apply get_inv in E. destruct o as [n b1|n c cs fr sh].
  - exists 1. cbn [ObjModel.current]. rewrite E0. exact H.
  - destruct (sh_buf (get_sh s sh)) as [b1|] eqn:Eb; [|discriminate]. injection H as ->. exists limit. eapply A; eassumption.
Qed.
End State.

(** An object stands for at most one circuit. *)
Lemma circuit_fun (s : state) l cs conns cs' conns' : circuit_of s l cs conns -> circuit_of s l cs' conns' -> cs = cs' /\ conns = conns'.
Proof.
  intros (n & c & f & i & x & O & Hx & <-) (n' & c' & f' & i' & x' & O' & Hx' & <-). unfold object in *. rewrite O in O'. injection O' as <- <- <- <- <-. rewrite Hx in Hx'. injection Hx' as <-. auto.
Qed.
Lemma circuit_leaf (s : state) l cs conns n b : circuit_of s l cs conns -> object s l (OComp n b) -> False.
Proof. intros (n' & c & f & i & x & O & _) O'. unfold object in *. congruence. Qed.
Lemma unfolds_fun (s : state) : forall t l t', unfolds s l t -> unfolds s l t' -> t = t'.
Proof.
  induction t as [b|ts conns IH] using comp_ind'; intros l t' H H'.
  - inversion_clear H as [? n ? O|]. inversion_clear H' as [? n' b' O'|? cs conns ts C]; [unfold object in *; congruence|]. destruct (circuit_leaf C O).
  - inversion_clear H as [|? cs ? ? C U]. inversion_clear H' as [? n' b' O'|? cs' conns' ts' C' U']; [destruct (circuit_leaf C O')|].
    destruct (circuit_fun C C') as [<- <-]. f_equal. clear C C'. revert ts ts' IH U U'. induction cs as [|[k q] cs IHc]; intros ts ts' IH U U'; inversion U; inversion U'; subst; [reflexivity|].
    f_equal; [f_equal; eapply (IH _ _ (or_introl eq_refl)); eassumption|]. apply IHc; [|assumption|assumption]. intros n c Hin. apply (IH n). now right.
Qed.
End Tree.
