(** Names of objects: who renames what. *)
From Verif Require Import Base PyStr NetModel NetSpec NetProofs ObjModel ObjProofs.
Set Implicit Arguments.
Unset Strict Implicit.
Local Open Scope list_scope.
Local Open Scope nat_scope.

Section Names.
Variables (X D : Type) (x0 : X) (d0 : D).
Variable reserved : string -> bool.
Variable limit : nat.
Notation state := (state X D).
Notation add_comp := (@add_comp X D reserved).
Notation register := (@register X D reserved).
Notation refresh := (@refresh X D x0 d0 limit).
Notation new_net := (@new_net X D x0 d0 reserved limit).
Notation step := (@step X D x0 d0 reserved limit).
Notation run := (@run X D x0 d0 reserved limit).

Lemma dict_set_In V (key : string) (v : V) d k w : In (k, w) (dict_set String.eqb key v d) -> In (k, w) d \/ (k = key /\ w = v).
Proof.
  induction d as [|[k' v'] d IH]; cbn [dict_set]; [intros [H|[]]; injection H as <- <-; auto|].
  destruct (String.eqb_spec key k') as [<-|N]; intros [H|H]; [injection H as <- <-; auto|left; now right|left; now left|].
  destruct (IH H) as [H'|H']; [left; now right|now right].
Qed.
Lemma assoc_In_any V (k : string) (d : list (string * V)) v : assoc String.eqb k d = Some v -> In (k, v) d.
Proof.
  induction d as [|[m w] d IH]; [discriminate|]. cbn. destruct (String.eqb_spec k m) as [->|E]; [intros [= ->]; auto|auto].
Qed.

Lemma renames_other cs : forall (s : state) k, (forall key, ~ In (key, k) cs) -> nth_error (st_objs (renames s cs)) k = nth_error (st_objs s) k.
Proof.
  induction cs as [|[m t] cs IH]; intros s k H; [reflexivity|]. change (renames s ((m, t) :: cs)) with (renames (rename s t m) cs).
  rewrite IH by (intros key Q; apply (H key); now right). rewrite rename_objs. destruct (Nat.eqb_spec t k) as [->|]; [|reflexivity]. exfalso. apply (H m). now left.
Qed.
(** The last key of an object becomes its name. *)
Lemma renames_last cs : forall (s : state) k key o, NoDup (map snd cs) -> In (key, k) cs -> nth_error (st_objs s) k = Some o ->
  nth_error (st_objs (renames s cs)) k = Some (with_name o key).
Proof.
  induction cs as [|[m t] cs IH]; intros s k key o Hn Hin E; [contradiction|]. change (renames s ((m, t) :: cs)) with (renames (rename s t m) cs).
  cbn [map snd] in Hn. inversion_clear Hn as [|? ? H1 H2]. destruct Hin as [Q|Hin].
  - injection Q as -> ->. rewrite renames_other; [rewrite rename_objs, Nat.eqb_refl, E; reflexivity|]. intros q Hq. apply H1. apply (in_map snd) in Hq. exact Hq.
  - apply IH; [exact H2|exact Hin|]. rewrite rename_objs. destruct (Nat.eqb_spec t k) as [->|]; [|exact E]. exfalso. apply H1. apply (in_map snd) in Hin. exact Hin.
Qed.

Lemma refresh_others s l s' n c cs f sh k : refresh s l = Ok s' -> nth_error (st_objs s) l = Some (ONet n c cs f sh) -> k <> l ->
  (forall key, ~ In (key, k) (sh_mods (get_sh s sh))) -> nth_error (st_objs s') k = nth_error (st_objs s) k.
Proof.
  intros H E Hk Hm. destruct (refresh_inv H) as (n1 & c1 & cs0 & f1 & sh1 & E1 & Q). rewrite E in E1. injection E1 as <- <- <- <- <-.
  destruct Q as [[-> _]|(cs2 & n' & b & s3 & _ & _ & HF & E3 & _ & _ & _ & E')]; [reflexivity|].
  assert (N : forall (m : nat) o (q : state), nth_error (st_objs (put_obj q l o)) k = nth_error (st_objs q) k).
  { intros _ o q. cbn [put_obj st_objs]. rewrite nth_error_set_nth. destruct (Nat.eqb_spec l k); [congruence|reflexivity]. }
  rewrite E', (N 0). cbn [put_sh st_objs]. rewrite E3, (N 0). cbn [put_sh st_objs]. apply renames_other. intros key Hin.
  apply (Hm key). clear - HF Hin. induction HF as [|m e ms es [H1 H2] _ IH]; [contradiction|]. destruct Hin as [->|Hin]; [|now apply IH]. cbn [fst snd] in *. subst m. apply assoc_In_any, H2.
Qed.

(** The networks in with-blocks exist. *)
Definition stacked (s : state) : Prop := forall k, In k (st_stack s) -> k < length (st_objs s).
Lemma stacked_start : stacked (start X D). Proof. intros k []. Qed.
Lemma stacked_step s p s' : good s -> stacked s -> step s p = Ok s' -> stacked s'.
Proof.
  intros G S H k Hk. destruct (step_ok G H) as (_ & F & Hs & _). pose proof (fr_objs F). rewrite Hs in Hk.
  destruct p; cbn [stack_after] in Hk; try (apply S in Hk; lia).
  - destruct Hk as [<-|Hk]; [|apply S in Hk; lia]. cbn [ObjModel.step] in H. destruct (get_net s net) as [[[[[n c] cs] f] sh]|] eqn:E; [|discriminate].
    apply get_net_inv, nth_in_range in E. lia.
  - assert (In k (st_stack s)) as Hk' by (destruct (st_stack s); [contradiction|now right]). apply S in Hk'. lia.
Qed.
Lemma stacked_run ps : forall s s', good s -> stacked s -> run s ps = Ok s' -> stacked s'.
Proof.
  induction ps as [|p r IH]; intros s s' G S H; unfold ObjModel.run in H; cbn [foldM] in H; [injection H as <-; exact S|].
  destruct (step s p) as [s1|] eqn:E; [|discriminate]. cbn [bind] in H. eapply IH; [|eapply stacked_step; eassumption|exact H]. eapply step_ok; eassumption.
Qed.

Lemma new_net_others s name cls cs conns s' l k o : good s -> stacked s -> new_net s name cls cs conns = Ok (s', l) ->
  nth_error (st_objs s) k = Some o -> (forall key, ~ In (key, k) cs) -> nth_error (st_objs s') k = Some o.
Proof.
  intros G S. unfold ObjModel.new_net. cbn [alloc_net]. set (s0 := {| st_objs := _; st_sh := _; st_stack := _ |}). intros H Ek Hk.
  destruct (register s0 name (length (st_objs s))) as [s1|] eqn:E1; [|discriminate]. cbn [bind] in H.
  destruct (foldM _ s1 cs) as [s2|] eqn:E2; [|discriminate]. cbn [bind] in H. set (i := length (st_sh s)) in *.
  assert (El0 : nth_error (st_objs s0) (length (st_objs s)) = Some (ONet name cls [] None i)) by (cbn [s0 st_objs]; rewrite nth_error_app2 by lia; now rewrite Nat.sub_diag).
  destruct (register_calm E1) as (C1 & O1 & L1).
  assert (M1 : sh_mods (get_sh s1 i) = []).
  { assert (M0 : sh_mods (get_sh s0 i) = []) by (unfold get_sh, s0; cbn [st_sh]; rewrite app_nth2 by (unfold i; lia); unfold i; now rewrite Nat.sub_diag).
    unfold ObjModel.register in E1. cbn [s0 st_stack] in E1. destruct (st_stack s) as [|q r] eqn:Es; [injection E1 as <-; exact M0|]. destruct name as [nm|]; [|injection E1 as <-; exact M0].
    apply add_comp_inv in E1 as (n1 & cl & cs1 & f1 & sh1 & o1 & Eq & _ & _ & _ & _ & ->).
    assert (Hq : q < length (st_objs s)) by (apply S; rewrite Es; now left). cbn [st_objs s0] in Eq. rewrite nth_error_app1 in Eq by exact Hq.
    assert (sh1 < i) by (eapply (proj1 G); [exact Eq|reflexivity]). unfold get_sh, put_sh; cbn [st_sh]. rewrite nth_set_nth by lia. exact M0. }
  assert (I2 : st_objs s2 = st_objs s0 /\ i < length (st_sh s2) /\ forall key t, In (key, t) (sh_mods (get_sh s2 i)) -> exists key', In (key', t) cs).
  { apply (@foldM_inv _ _ _ (fun q => st_objs q = st_objs s0 /\ i < length (st_sh q) /\ forall key t, In (key, t) (sh_mods (get_sh q i)) -> exists key', In (key', t) cs) _ _ _ E2).
    - split; [exact O1|]. split; [rewrite L1; cbn [s0 st_sh]; rewrite app_length; cbn; unfold i; lia|]. rewrite M1. intros key t [].
    - intros [key t] a a' Hin (Ha1 & Ha2 & Ha3) Hs. cbn [fst snd] in Hs. apply add_comp_inv in Hs as (n1 & cl & cs1 & f1 & sh1 & o1 & Eq & _ & _ & _ & _ & ->).
      rewrite Ha1, El0 in Eq. injection Eq as <- <- <- <- <-. split; [exact Ha1|]. split; [cbn [put_sh st_sh]; now rewrite set_nth_length|].
      rewrite get_sh_put by exact Ha2. cbn [sh_mods]. intros k1 t1 Hk1. destruct (dict_set_In Hk1) as [Hk1'|[-> ->]]; [eauto|eauto]. }
  destruct I2 as (O2 & L2 & M2). rewrite (proj2 (get_net_inv _ _ _ _ _ _ _) (eq_trans (f_equal (fun q => nth_error q _) O2) El0)) in H. cbn [bind] in H.
  match type of H with bind (ObjModel.refresh _ _ _ ?q _) _ = _ => set (s3 := q) in H end.
  destruct (refresh s3 (length (st_objs s))) as [s4|] eqn:E4; [|discriminate]. cbn [bind] in H. injection H as <- <-.
  assert (Ek0 : nth_error (st_objs s0) k = Some o) by (cbn [s0 st_objs]; rewrite nth_error_app1; [exact Ek|eapply nth_in_range, Ek]).
  rewrite (@refresh_others s3 (length (st_objs s)) s4 name cls [] None i k E4).
  - cbn [s3 put_sh st_objs]. rewrite O2. exact Ek0.
  - cbn [s3 put_sh st_objs]. rewrite O2. exact El0.
  - apply nth_in_range in Ek. lia.
  - intros key Hin. unfold s3 in Hin. rewrite get_sh_put in Hin by exact L2. cbn [sh_mods] in Hin. destruct (M2 _ _ Hin) as (key' & Hin'). exact (Hk key' Hin').
Qed.

Lemma copy_terms_new ts : forall (s : state) d s' d' B, B <= length (st_objs s) -> (forall k t, In (k, t) d -> B <= t) -> copy_terms s ts d = Ok (s', d') -> forall k t, In (k, t) d' -> B <= t.
Proof.
  induction ts as [|t r IH]; intros s d s' d' B Hb Hd H k q Hin; cbn [copy_terms] in H; [injection H as <- <-; eauto|].
  destruct (get s t) as [o|]; [|discriminate]. cbn [bind] in H. destruct o as [[n|] b|]; try discriminate. cbn [alloc] in H.
  eapply IH; [|  |exact H|exact Hin]; [cbn [st_objs]; rewrite app_length; lia|]. intros k1 t1 H1. destruct (dict_set_In H1) as [H1'|[_ ->]]; [eauto|exact Hb].
Qed.
Lemma parts_new (d : list (string * nat)) B : forall p, (forall k t, In (k, t) p -> B <= t) -> (forall k t, In (k, t) d -> B <= t) ->
  forall k t, In (k, t) (fold_left (fun p e => dict_set String.eqb (fst e) (snd e) p) d p) -> B <= t.
Proof.
  induction d as [|[k1 t1] d IH]; intros p Hp Hd k t Hin; cbn [fold_left] in Hin; [eauto|]. eapply IH; [|intros; eapply Hd; right; eassumption|exact Hin].
  cbn [fst snd]. intros k2 t2 H2. destruct (dict_set_In H2) as [H2'|[_ ->]]; [eauto|]. apply (Hd k1). now left.
Qed.

(** ** Who adds to [_modules] *)
Definition mods_same (x : option nat) (s s' : state) : Prop := forall i, i < length (st_sh s) -> Some i <> x -> sh_mods (get_sh s' i) = sh_mods (get_sh s i).
Lemma mods_same_refl x s : mods_same x s s. Proof. intros i _ _. reflexivity. Qed.
Lemma mods_same_trans x a b c : length (st_sh a) <= length (st_sh b) -> mods_same x a b -> mods_same x b c -> mods_same x a c.
Proof. intros L H1 H2 i Hi Hx. rewrite H2 by (assumption || lia). now apply H1. Qed.
Lemma put_sh_mods (s : state) j y i : i <> j -> get_sh (put_sh s j y) i = get_sh s i.
Proof. intros H. unfold get_sh, put_sh; cbn [st_sh]. now rewrite nth_set_nth by congruence. Qed.
(** The shared part of the network in the innermost with-block. *)
Definition inner (s : state) : option nat :=
  match st_stack s with [] => None | k :: _ => match nth_error (st_objs s) k with Some o => sh_of o | None => None end end.
Lemma add_comp_mods s net key c s' i : add_comp s net key c = Ok s' -> (forall o, nth_error (st_objs s) net = Some o -> sh_of o <> Some i) ->
  get_sh s' i = get_sh s i.
Proof.
  intros H Hn. apply add_comp_inv in H as (n & cl & cs & f & sh & o & E & _ & _ & _ & _ & ->). apply put_sh_mods. intros ->. apply (Hn _ E). reflexivity.
Qed.
Lemma register_mods s name c s' : register s name c = Ok s' -> mods_same (inner s) s s'.
Proof.
  unfold ObjModel.register, inner. intros H i _ Hx. destruct (st_stack s) as [|q r]; [injection H as <-; reflexivity|]. destruct name as [nm|]; [|injection H as <-; reflexivity].
  rewrite (@add_comp_mods _ _ _ _ _ i H); [reflexivity|]. intros o Ho Q. rewrite Ho in Hx. congruence.
Qed.
Lemma inner_frame (s s' : state) t x : stacked s -> frame t x s s' -> st_stack s' = st_stack s -> inner s' = inner s.
Proof.
  intros S F E. unfold inner. rewrite E. destruct (st_stack s) as [|q r] eqn:Es; [reflexivity|].
  assert (Hq : q < length (st_objs s)) by (apply S; rewrite Es; now left). destruct (nth_error (st_objs s) q) as [o|] eqn:Eo; [|apply nth_error_None in Eo; lia].
  destruct (fr_obj F Eo) as (o' & -> & H & _). exact H.
Qed.
Lemma calm_stacked (s s' : state) : stacked s -> calm s s' -> stacked s'.
Proof. intros S [F _ E] k Hk. rewrite E in Hk. apply S in Hk. pose proof (fr_objs F). lia. Qed.

Lemma new_comp_mods s name b s' l : new_comp reserved s name b = Ok (s', l) -> stacked s -> mods_same (inner s) s s'.
Proof.
  unfold ObjModel.new_comp. cbn [alloc]. set (s0 := {| st_objs := _; st_sh := _; st_stack := _ |}). intros H S. destruct (register s0 name _) as [s1|] eqn:E; [|discriminate]. cbn [bind] in H.
  destruct (check_buf false b); [|discriminate]. injection H as <- <-. pose proof (register_mods E) as M. assert (Ei : inner s0 = inner s) by (apply (inner_frame S (alloc_frame s (OComp name b))); reflexivity).
  rewrite Ei in M. exact M.
Qed.
Lemma refresh_mods s l s' i : refresh s l = Ok s' -> i < length (st_sh s) -> sh_mods (get_sh s' i) = sh_mods (get_sh s i).
Proof.
  intros H Hi. destruct (refresh_inv H) as (n1 & c1 & cs0 & f1 & sh1 & E1 & [[-> _]|(cs2 & n' & b & s3 & _ & _ & HF & E3 & _ & _ & _ & E')]); [reflexivity|].
  destruct (renames_frame cs2 s) as (_ & R & _ & _).
  assert (P : forall (q : state) o, get_sh (put_obj q l o) i = get_sh q i) by reflexivity. rewrite E', P.
  destruct (Nat.eq_dec i sh1) as [->|Hn].
  - rewrite get_sh_put; [reflexivity|]. rewrite E3. cbn [put_obj put_sh st_sh]. rewrite set_nth_length, R. exact Hi.
  - rewrite put_sh_mods by exact Hn. rewrite E3, P. rewrite put_sh_mods by exact Hn. unfold get_sh. now rewrite R.
Qed.
Lemma new_net_mods s name cls cs conns s' l : good s -> stacked s -> new_net s name cls cs conns = Ok (s', l) -> mods_same (inner s) s s'.
Proof.
  intros G S. unfold ObjModel.new_net. cbn [alloc_net]. set (s0 := {| st_objs := _; st_sh := _; st_stack := _ |}). intros H.
  destruct (register s0 name (length (st_objs s))) as [s1|] eqn:E1; [|discriminate]. cbn [bind] in H.
  destruct (foldM _ s1 cs) as [s2|] eqn:E2; [|discriminate]. cbn [bind] in H. set (n := length (st_sh s)) in *.
  assert (El0 : nth_error (st_objs s0) (length (st_objs s)) = Some (ONet name cls [] None n)) by (cbn [s0 st_objs]; rewrite nth_error_app2 by lia; now rewrite Nat.sub_diag).
  assert (L0 : length (st_sh s0) = 1 + n) by (cbn [s0 st_sh]; rewrite app_length; cbn; unfold n; lia).
  destruct (register_calm E1) as (C1 & O1 & L1).
  assert (M1 : mods_same (inner s) s s1).
  { pose proof (register_mods E1) as M. assert (Ei : inner s0 = inner s) by (apply (inner_frame S (alloc_net_frame s name cls)); reflexivity). rewrite Ei in M.
    intros i Hi Hx. rewrite M by (assumption || lia). unfold get_sh, s0; cbn [st_sh]. now rewrite app_nth1 by exact Hi. }
  assert (I2 : st_objs s2 = st_objs s0 /\ length (st_sh s2) = 1 + n /\ forall i, i < n -> get_sh s2 i = get_sh s1 i).
  { apply (@foldM_inv _ _ _ (fun q => st_objs q = st_objs s0 /\ length (st_sh q) = 1 + n /\ forall i, i < n -> get_sh q i = get_sh s1 i) _ _ _ E2).
    - split; [exact O1|]. split; [congruence|auto].
    - intros [key t] a a' Hin (Ha1 & Ha2 & Ha3) Hs. cbn [fst snd] in Hs. pose proof (add_comp_calm Hs) as (_ & O & L). split; [congruence|]. split; [congruence|].
      intros i Hi. rewrite (@add_comp_mods _ _ _ _ _ i Hs); [now apply Ha3|]. intros o Ho Q. rewrite Ha1, El0 in Ho. injection Ho as <-. cbn in Q. injection Q as <-. lia. }
  destruct I2 as (O2 & L2 & M2). rewrite (proj2 (get_net_inv _ _ _ _ _ _ _) (eq_trans (f_equal (fun q => nth_error q _) O2) El0)) in H. cbn [bind] in H.
  match type of H with bind (ObjModel.refresh _ _ _ ?q _) _ = _ => set (s3 := q) in H end.
  destruct (refresh s3 (length (st_objs s))) as [s4|] eqn:E4; [|discriminate]. cbn [bind] in H. injection H as <- <-.
  intros i Hi Hx. rewrite (refresh_mods E4) by (cbn [s3 put_sh st_sh]; rewrite set_nth_length; fold n in Hi; lia). unfold s3. rewrite put_sh_mods by (fold n in Hi; lia). rewrite M2 by exact Hi. now apply M1.
Qed.
Lemma copy_terms_sh ts : forall (s : state) d s' d', copy_terms s ts d = Ok (s', d') -> st_sh s' = st_sh s.
Proof.
  induction ts as [|t r IH]; intros s d s' d' H; cbn [copy_terms] in H; [injection H as <- <-; reflexivity|].
  destruct (get s t) as [o|]; [|discriminate]. cbn [bind] in H. destruct o as [[n|] b|]; try discriminate. cbn [alloc] in H. now rewrite (IH _ _ _ _ H).
Qed.
(** [terminate], step by step. *)
Lemma terminate_inv s l arg ts s' nw : good s -> stacked s -> terminate x0 d0 reserved limit s l arg ts = Ok (s', nw) -> exists own cls cs f sh s3 i,
  nth_error (st_objs s) l = Some (ONet own cls cs f sh) /\ nth_error (st_objs s3) l = Some (ONet own cls cs f sh) /\ good s3 /\ calm s s3
  /\ length (st_objs s) <= nw /\ (exists n c cs' f, nth_error (st_objs s3) nw = Some (ONet n c cs' f i)) /\ length (st_sh s) <= i
  /\ mods_same (inner s) s s3 /\ add_comp s3 nw "base" l = Ok s'.
Proof.
  intros G S H. unfold ObjModel.terminate in H. destruct (get_net s l) as [[[[[own cls] cs] f] sh]|] eqn:E; [|discriminate]. cbn [bind] in H. apply get_net_inv in E.
  destruct f as [n|]; [|discriminate]. cbn [of_option bind] in H. destruct (n =? 0); [discriminate|].
  destruct (copy_terms s ts []) as [[s1 d]|] eqn:E1; [|discriminate]. cbn [bind] in H. destruct (copy_terms_ok x0 d0 reserved limit G E1) as (C1 & G1 & _ & L1 & more & O1).
  pose proof (copy_terms_sh E1) as H1. assert (D1 : forall k t, In (k, t) d -> length (st_objs s) <= t) by (eapply copy_terms_new; [apply le_n| |exact E1]; intros k t []).
  destruct (alloc s1 _) as [s2 c] eqn:E2. set (o := ONet (Some (copied_name own cls)) cls cs (Some n) sh) in *. pose proof (f_equal fst E2) as E2'. pose proof (f_equal snd E2) as E2c. cbn [fst snd alloc] in E2', E2c.
  assert (El : nth_error (st_objs s1) l = Some (ONet own cls cs (Some n) sh)) by (rewrite O1, nth_error_app1; [exact E|eapply nth_in_range, E]).
  assert (G2 : good s2).
  { rewrite <- E2'. apply (good_alloc (o := o) G1). split; [eapply (proj1 G1); [exact El|reflexivity]|]. intros k t Hin. eapply (proj1 (proj2 G1)); eassumption. }
  assert (C2 : calm s1 s2) by (rewrite <- E2'; apply (alloc_calm s1 o)). pose proof (calm_trans C1 C2) as C12. pose proof (calm_stacked S C12) as S2.
  assert (El2 : nth_error (st_objs s2) l = Some (ONet own cls cs (Some n) sh)) by (rewrite <- E2'; cbn [st_objs]; rewrite nth_error_app1; [exact El|eapply nth_in_range, El]).
  destruct (new_net s2 _ _ _ _) as [[s3 nw1]|] eqn:E3; [|discriminate]. cbn [bind] in H. destruct (new_net_ok G2 E3) as (C3 & G3 & Hnw & _ & (n' & c' & cs' & f' & Hi) & _).
  destruct (add_comp s3 nw1 "base" l) as [s4|] eqn:E4; [|discriminate]. cbn [bind] in H. injection H as <- <-. exists own, cls, cs, (Some n), sh, s3, (length (st_sh s2)).
  split; [exact E|]. split.
  { eapply new_net_others; [exact G2|exact S2|exact E3|exact El2|]. intros key Hin.
    assert (length (st_objs s) <= l); [|apply nth_in_range in E; lia]. eapply parts_new; [|exact D1|exact Hin]. intros k t [Q|[]]. injection Q as <- <-. rewrite <- E2c, O1, app_length. lia. }
  split; [exact G3|]. split; [apply (calm_trans C12 C3)|]. split; [rewrite Hnw; apply (fr_objs (ca_frame C12))|]. split; [eauto 6|].
  split; [pose proof (fr_len (ca_frame C12)); lia|]. split; [|exact E4].
  intros i Hlt Hx. pose proof (new_net_mods G2 S2 E3) as M. rewrite (inner_frame S (ca_frame C12) (ca_stack C12)) in M. rewrite M; [|pose proof (fr_len (ca_frame C12)); lia|exact Hx].
  rewrite <- E2'. unfold get_sh; cbn [st_sh]. now rewrite H1.
Qed.
Lemma terminate_mods s l arg ts s' nw : good s -> stacked s -> terminate x0 d0 reserved limit s l arg ts = Ok (s', nw) -> mods_same (inner s) s s'.
Proof.
  intros G S H. destruct (terminate_inv G S H) as (own & cls & cs & f & sh & s3 & i & _ & _ & G3 & C3 & _ & (n & c & cs' & f' & En) & Hi & M & Ha).
  intros j Hj Hx. rewrite (@add_comp_mods _ _ _ _ _ j Ha); [now apply M|]. intros o Ho Q. rewrite En in Ho. injection Ho as <-. cbn in Q. injection Q as <-. lia.
Qed.
Lemma new_terms_mods s tcls t n s' ts : good s -> stacked s -> new_terms reserved s tcls t n = Ok (s', ts) -> mods_same (inner s) s s'.
Proof.
  intros G S H. unfold new_terms in H.
  apply (@foldM_inv _ _ _ (fun a => good (fst a) /\ calm s (fst a) /\ mods_same (inner s) s (fst a)) _ _ _ H); [split; [exact G|split; [apply calm_refl|apply mods_same_refl]]|].
  intros e [a1 l1] [a2 l2] _ (Ha1 & Ha2 & Ha3) Hs. cbn [fst snd] in *. destruct (new_comp reserved a1 (Some e) t) as [[b1 c1]|] eqn:E; [|discriminate]. cbn [bind] in Hs. injection Hs as <- <-.
  destruct (new_comp_ok Ha1 E) as (C & G' & _). split; [exact G'|]. split; [eapply calm_trans; eassumption|].
  pose proof (new_comp_mods E (calm_stacked S Ha2)) as M. rewrite (inner_frame S (ca_frame Ha2) (ca_stack Ha2)) in M. eapply mods_same_trans; [apply (fr_len (ca_frame Ha2))|exact Ha3|exact M].
Qed.
(** Statements other than assignments and [link] add to the innermost network of the with-blocks only. *)
Lemma step_mods s p s' : good s -> stacked s -> step s p = Ok s' ->
  match p with
  | SAdd net _ _ => forall o, nth_error (st_objs s) net = Some o -> mods_same (sh_of o) s s'
  | _ => mods_same (inner s) s s'
  end.
Proof.
  intros G S H. assert (LK : forall q ports, link_net x0 d0 limit s q ports = Ok s' -> mods_same (inner s) s s').
  { intros q ports Hl. unfold link_net in Hl. destruct (get_net s q) as [[[[[n c] cs] f] sh]|] eqn:E; [|discriminate]. cbn [bind] in Hl. apply get_net_inv in E.
    destruct (link_strings ports) as [conns [e|]]; [discriminate|]. intros i Hi _. rewrite (refresh_mods Hl) by (cbn [put_sh st_sh]; now rewrite set_nth_length).
    destruct (Nat.eq_dec i sh) as [->|Hn]; [now rewrite get_sh_put|now rewrite put_sh_mods]. }
  destruct p as [name b|name cls cs conns|net key c|net ports|ports|net arg ts|net arg tcls t|net|]; cbn [ObjModel.step] in H.
  - destruct (new_comp reserved s name b) as [[s1 l]|] eqn:E; [|discriminate]. injection H as <-. eapply new_comp_mods; eassumption.
  - destruct (new_net s name cls cs conns) as [[s1 l]|] eqn:E; [|discriminate]. injection H as <-. eapply new_net_mods; eassumption.
  - intros o Ho i _ Hx. rewrite (@add_comp_mods _ _ _ _ _ i H); [reflexivity|]. intros o' Ho' Q. congruence.
  - eauto.
  - destruct (st_stack s); [discriminate|eauto].
  - destruct (terminate _ _ _ _ s net arg ts) as [[s1 l]|] eqn:E; [|discriminate]. injection H as <-. eapply terminate_mods; eassumption.
  - destruct (get_net s net) as [[[[[n0 c0] cs0] f0] sh0]|] eqn:E0; [|discriminate]. cbn [bind] in H. destruct f0 as [n|]; [|discriminate]. cbn [of_option bind] in H.
    destruct (n =? 0); [discriminate|]. destruct (new_terms reserved s tcls t n) as [[s1 ts]|] eqn:E1; [|discriminate]. cbn [bind] in H.
    destruct (new_terms_ok x0 d0 limit G E1) as (C1 & G1 & _). pose proof (new_terms_mods G S E1) as M1. pose proof (calm_stacked S C1) as S1.
    destruct (terminate _ _ _ _ s1 net arg ts) as [[s2 l]|] eqn:E2; [|discriminate]. injection H as <-. pose proof (terminate_mods G1 S1 E2) as M2. rewrite (inner_frame S (ca_frame C1) (ca_stack C1)) in M2.
    eapply mods_same_trans; [apply (fr_len (ca_frame C1))|exact M1|exact M2].
  - destruct (get_net s net) as [?|]; [|discriminate]. cbn [bind] in H. injection H as <-. intros i _ _. reflexivity.
  - destruct (st_stack s); [discriminate|]. injection H as <-. intros i _ _. reflexivity.
Qed.
End Names.
