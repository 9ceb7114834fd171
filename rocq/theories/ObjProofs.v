(** Programs on shared objects: what a statement can change, and when a network agrees with its parts. *)
From Verif Require Import Base PyStr NetModel NetSpec NetProofs WireProofs StateProofs NetBuild ObjModel.
Set Implicit Arguments.
Unset Strict Implicit.
Local Open Scope list_scope.
Local Open Scope nat_scope.

Lemma set_nth_length A (l : list A) i a : length (set_nth l i a) = length l.
Proof. revert i. induction l as [|x l IH]; intros [|i]; cbn; auto. Qed.
Lemma nth_error_set_nth A (l : list A) i j a :
  nth_error (set_nth l i a) j = if i =? j then (if j <? length l then Some a else None) else nth_error l j.
Proof.
  revert i j. induction l as [|x l IH]; intros i j; cbn [set_nth length].
  - destruct j; cbn; destruct (i =? _); reflexivity.
  - destruct i as [|i], j as [|j]; cbn [nth_error Nat.eqb]; try reflexivity.
    rewrite IH. reflexivity.
Qed.
Lemma nth_set_nth A (l : list A) i j a d : i <> j -> nth j (set_nth l i a) d = nth j l d.
Proof.
  revert i j. induction l as [|x l IH]; intros i j H; [reflexivity|]. destruct i as [|i], j as [|j]; cbn; auto.
  congruence.
Qed.
Lemma nth_set_nth_same A (l : list A) i a d : i < length l -> nth i (set_nth l i a) d = a.
Proof. revert i. induction l as [|x l IH]; intros i H; cbn in H; [lia|]. destruct i as [|i]; cbn; [reflexivity|]. apply IH. lia. Qed.

Lemma foldM_inv A B (f : A -> B -> res A) (P : A -> Prop) l : forall a a', foldM f a l = Ok a' -> P a ->
  (forall b x x', In b l -> P x -> f x b = Ok x' -> P x') -> P a'.
Proof.
  induction l as [|b l IH]; intros a a' H Pa Hs; cbn in H; [congruence|].
  destruct (f a b) as [a1|] eqn:E; [|discriminate]. cbn in H. eapply IH; [exact H| |].
  - eapply Hs; [left; reflexivity|exact Pa|exact E].
  - intros b' x x' Hb. apply Hs. now right.
Qed.

Section Obj.
Variables (X D : Type) (x0 : X) (d0 : D).
Variable reserved : string -> bool.
Variable limit : nat.
Notation buf := (buf X D).
Notation obj := (obj X D).
Notation state := (state X D).
Notation add_comp := (@add_comp X D reserved).
Notation register := (@register X D reserved).
Notation current := (@current X D x0 d0).
Notation filled := (@filled X D x0 d0).
Notation refresh := (@refresh X D x0 d0 limit).
Notation new_net := (@new_net X D x0 d0 reserved limit).
Notation new_comp := (@new_comp X D reserved).
Notation link_net := (@link_net X D x0 d0 limit).
Notation terminate := (@terminate X D x0 d0 reserved limit).
Notation step := (@step X D x0 d0 reserved limit).
Notation run := (@run X D x0 d0 reserved limit).

Definition sh_of (o : obj) : option nat := match o with OComp _ _ => None | ONet _ _ _ _ sh => Some sh end.
(** An object without its name. *)
Definition skel (o : obj) : buf + (string * list (string * nat) * option nat * nat) :=
  match o with OComp _ b => inl b | ONet _ c cs f sh => inr (c, cs, f, sh) end.

(** Nothing changes but names, new objects, [_modules], the object [t] and the shared part [x]. *)
Record frame (t x : option nat) (s s' : state) : Prop := {
  fr_obj : forall l o, nth_error (st_objs s) l = Some o -> exists o', nth_error (st_objs s') l = Some o'
             /\ sh_of o' = sh_of o /\ (name_of o <> None -> name_of o' <> None) /\ (skel o' = skel o \/ Some l = t);
  fr_len : length (st_sh s) <= length (st_sh s');
  fr_sh : forall i, i < length (st_sh s) -> Some i <> x ->
            sh_conns (get_sh s' i) = sh_conns (get_sh s i) /\ sh_buf (get_sh s' i) = sh_buf (get_sh s i);
  fr_objs : length (st_objs s) <= length (st_objs s')
}.

Lemma frame_refl t x s : frame t x s s.
Proof. constructor; auto. intros l o H. exists o. auto. Qed.
Lemma frame_trans t x s1 s2 s3 : frame t x s1 s2 -> frame t x s2 s3 -> frame t x s1 s3.
Proof. clear limit reserved x0 d0.
  intros [A1 A2 A3 A4] [B1 B2 B3 B4]. constructor; [|lia| |lia].
  - intros l o H. destruct (A1 l o H) as (o1 & H1 & E1 & N1 & K1). destruct (B1 l o1 H1) as (o2 & H2 & E2 & N2 & K2).
    exists o2. split; [exact H2|]. split; [congruence|]. split; [tauto|].
    destruct K1 as [K1|K1]; [|now right]. destruct K2 as [K2|K2]; [left; congruence|now right].
  - intros i Hi Hx. destruct (A3 i Hi Hx) as [E1 E2]. destruct (B3 i ltac:(lia) Hx) as [E3 E4]. split; congruence.
Qed.
Lemma frame_weak t x s s' : frame None None s s' -> frame t x s s'.
Proof.
  intros [A1 A2 A3 A4]. constructor; auto.
  - intros l o H. destruct (A1 l o H) as (o' & H1 & E & N & [K|K]); [|discriminate]. exists o'. auto.
  - intros i Hi _. apply A3; [exact Hi|discriminate].
Qed.

(** Networks point to existing shared parts. *)
Definition wf (s : state) : Prop := forall l o i, nth_error (st_objs s) l = Some o -> sh_of o = Some i -> i < length (st_sh s).
(** Components of networks exist and have names; parts that are not networks passed their checks. *)
Definition named (s : state) : Prop := forall l n c cs f sh, nth_error (st_objs s) l = Some (ONet n c cs f sh) ->
  forall k t, In (k, t) cs -> exists o, nth_error (st_objs s) t = Some o /\ name_of o <> None.
Definition leaves (s : state) : Prop := forall l n b, nth_error (st_objs s) l = Some (OComp n b) -> check_buf false b = Ok b.
Definition good (s : state) : Prop := wf s /\ named s /\ leaves s.

(** A frame for an object and a shared part that are new. *)
Lemma frame_new t i s s' : length (st_objs s) <= t -> length (st_sh s) <= i -> frame (Some t) (Some i) s s' -> frame None None s s'.
Proof. clear limit reserved x0 d0.
  intros Ht Hi [A1 A2 A3 A4]. constructor; auto.
  - intros l o H. destruct (A1 l o H) as (o' & H1 & E & N & [K|K]); exists o'; [auto|]. injection K as <-.
    assert (l < length (st_objs s)) by (apply nth_error_Some; congruence). lia.
  - intros j Hj _. apply A3; [exact Hj|]. intros E. injection E as ->. lia.
Qed.

(** ** Single operations *)
Lemma get_inv (s : state) l o : get s l = Ok o <-> nth_error (st_objs s) l = Some o.
Proof. unfold get. destruct (nth_error _ l); cbn; split; congruence. Qed.
Lemma get_net_inv (s : state) l n c cs f sh : get_net s l = Ok (n, c, cs, f, sh) <-> nth_error (st_objs s) l = Some (ONet n c cs f sh).
Proof.
  unfold get_net. destruct (get s l) as [o|e] eqn:E; cbn [bind].
  - apply get_inv in E. destruct o; split; congruence.
  - split; [discriminate|]. intros H. apply get_inv in H. congruence.
Qed.

Lemma put_sh_frame (s : state) i y : sh_conns y = sh_conns (get_sh s i) -> sh_buf y = sh_buf (get_sh s i) -> frame None None s (put_sh s i y).
Proof. clear limit reserved x0 d0.
  intros E1 E2. constructor.
  - intros l o H. exists o. auto.
  - cbn. rewrite set_nth_length. lia.
  - intros j Hj _. unfold get_sh, put_sh; cbn [st_sh]. destruct (Nat.eq_dec i j) as [<-|Hn].
    + rewrite nth_set_nth_same by exact Hj. split; assumption.
    + rewrite nth_set_nth by exact Hn. split; reflexivity.
  - apply le_n.
Qed.
Lemma put_sh_frame_at t (s : state) i y : frame t (Some i) s (put_sh s i y).
Proof. clear limit reserved x0 d0.
  constructor.
  - intros l o H. exists o. auto.
  - cbn. rewrite set_nth_length. lia.
  - intros j Hj Hx. unfold get_sh, put_sh; cbn [st_sh]. rewrite nth_set_nth by congruence. split; reflexivity.
  - apply le_n.
Qed.
Lemma put_sh_objs (s : state) i y : st_objs (put_sh s i y) = st_objs s. Proof. reflexivity. Qed.

Lemma add_comp_inv s net key c s' : add_comp s net key c = Ok s' ->
  exists n cl cs f sh o, nth_error (st_objs s) net = Some (ONet n cl cs f sh) /\ nth_error (st_objs s) c = Some o
    /\ (name_of o = None \/ name_of o = Some key) /\ (forall t, ~ In (key, t) cs) /\ reserved key = false
    /\ s' = put_sh s sh {| sh_mods := dict_set String.eqb key c (sh_mods (get_sh s sh)); sh_conns := sh_conns (get_sh s sh); sh_buf := sh_buf (get_sh s sh) |}.
Proof.
  unfold ObjModel.add_comp. intros H. destruct (get_net s net) as [[[[[n cl] cs] f] sh]|] eqn:E; [|discriminate]. apply get_net_inv in E. cbn [bind] in H.
  destruct (get s c) as [o|] eqn:Eo; [|discriminate]. apply get_inv in Eo. cbn [bind] in H.
  destruct (existsb _ cs) eqn:Ex; [discriminate|]. destruct (match name_of o with Some _ => _ | None => _ end) eqn:En; [discriminate|].
  destruct (reserved key) eqn:Er; [discriminate|]. injection H as <-. exists n, cl, cs, f, sh, o. repeat (split; [assumption|]). split.
  - destruct (name_of o) as [m|]; [|now left]. right. apply negb_false_iff, String.eqb_eq in En. now subst.
  - split; [|split; [reflexivity|reflexivity]]. intros t Ht. assert (existsb (fun e => String.eqb key (fst e)) cs = true); [|congruence].
    apply existsb_exists. exists (key, t). split; [exact Ht|]. apply String.eqb_refl.
Qed.
Lemma add_comp_frame s net key c s' : add_comp s net key c = Ok s' -> frame None None s s' /\ st_objs s' = st_objs s /\ st_stack s' = st_stack s /\ length (st_sh s') = length (st_sh s).
Proof.
  intros H. apply add_comp_inv in H as (n & cl & cs & f & sh & o & _ & _ & _ & _ & _ & ->).
  split; [apply put_sh_frame; reflexivity|]. repeat split. cbn. apply set_nth_length.
Qed.
Lemma register_frame s name c s' : register s name c = Ok s' -> frame None None s s' /\ st_objs s' = st_objs s /\ st_stack s' = st_stack s /\ length (st_sh s') = length (st_sh s).
Proof.
  unfold ObjModel.register. intros H. destruct (st_stack s) as [|nw r] eqn:Es; [injection H as <-; auto using frame_refl|].
  destruct name as [n|]; [|injection H as <-; auto using frame_refl]. apply add_comp_frame in H. rewrite Es in H. exact H.
Qed.

Lemma alloc_frame (s : state) o : frame None None s (fst (alloc s o)).
Proof. clear limit reserved x0 d0.
  constructor; cbn [alloc fst st_objs st_sh].
  - intros l o' H. exists o'. rewrite nth_error_app1 by (apply nth_error_Some; congruence). auto.
  - apply le_n.
  - intros i _ _. split; reflexivity.
  - rewrite app_length. cbn. lia.
Qed.
Lemma alloc_net_frame (s : state) n c : frame None None s (fst (alloc_net s n c)).
Proof. clear limit reserved x0 d0.
  constructor; cbn [alloc_net fst st_objs st_sh].
  - intros l o' H. exists o'. rewrite nth_error_app1 by (apply nth_error_Some; congruence). auto.
  - rewrite app_length. lia.
  - intros i Hi _. unfold get_sh; cbn [st_sh]. rewrite app_nth1 by exact Hi. split; reflexivity.
  - rewrite app_length. cbn. lia.
Qed.

(** Changing names only. *)
Lemma rename_objs (s : state) l n k : nth_error (st_objs (rename s l n)) k = (if l =? k then option_map (fun o => with_name o n) (nth_error (st_objs s) k) else nth_error (st_objs s) k).
Proof.
  unfold rename. destruct (nth_error (st_objs s) l) as [o|] eqn:E.
  - cbn [put_obj st_objs]. rewrite nth_error_set_nth. destruct (Nat.eqb_spec l k) as [<-|]; [|reflexivity].
    assert (l < length (st_objs s)) by (apply nth_error_Some; congruence). rewrite (proj2 (Nat.ltb_lt _ _)) by assumption. now rewrite E.
  - destruct (Nat.eqb_spec l k) as [<-|]; [now rewrite E|reflexivity].
Qed.
Lemma rename_rest (s : state) l n : st_sh (rename s l n) = st_sh s /\ st_stack (rename s l n) = st_stack s /\ length (st_objs (rename s l n)) = length (st_objs s).
Proof. unfold rename. destruct (nth_error _ l); cbn; auto using set_nth_length. Qed.
Lemma with_name_skel o n : skel (with_name o n) = skel o /\ sh_of (with_name o n) = sh_of o /\ name_of (with_name o n) = Some n.
Proof. destruct o; auto. Qed.
Lemma rename_frame (s : state) l n : frame None None s (rename s l n).
Proof. clear limit reserved x0 d0.
  destruct (rename_rest s l n) as (E1 & E2 & E3). constructor.
  - intros k o H. rewrite rename_objs. destruct (l =? k).
    + rewrite H. cbn. eexists. split; [reflexivity|]. destruct (with_name_skel o n) as (K1 & K2 & K3). rewrite K3. split; [exact K2|]. split; [congruence|now left].
    + exists o. auto.
  - now rewrite E1.
  - intros i _ _. unfold get_sh. rewrite E1. split; reflexivity.
  - now rewrite E3.
Qed.
Definition renames (s : state) (cs : list (string * nat)) : state := fold_left (fun s e => rename s (snd e) (fst e)) cs s.
Lemma renames_frame cs : forall s, frame None None s (renames s cs) /\ st_sh (renames s cs) = st_sh s /\ st_stack (renames s cs) = st_stack s
  /\ length (st_objs (renames s cs)) = length (st_objs s).
Proof. clear limit reserved x0 d0.
  induction cs as [|e cs IH]; intros s; [cbn; auto using frame_refl|]. destruct (IH (rename s (snd e) (fst e))) as (A & B & C & E).
  change (renames s (e :: cs)) with (renames (rename s (snd e) (fst e)) cs).
  destruct (rename_rest s (snd e) (fst e)) as (E1 & E2 & E3). split; [eapply frame_trans; [apply rename_frame|exact A]|]. split; [congruence|]. split; congruence.
Qed.
Lemma renames_named cs : forall s k t, In (k, t) cs -> t < length (st_objs s) -> exists o, nth_error (st_objs (renames s cs)) t = Some o /\ name_of o <> None.
Proof. clear limit reserved x0 d0.
  induction cs as [|e cs IH]; intros s k t Hin Ht; [contradiction|]. change (renames s (e :: cs)) with (renames (rename s (snd e) (fst e)) cs). destruct Hin as [->|Hin].
  - cbn [fst snd]. destruct (nth_error (st_objs s) t) as [o|] eqn:E; [|apply nth_error_None in E; lia].
    assert (E' : nth_error (st_objs (rename s t k)) t = Some (with_name o k)) by (rewrite rename_objs, Nat.eqb_refl, E; reflexivity).
    destruct (renames_frame cs (rename s t k)) as (F & _). destruct (fr_obj F E') as (o' & H1 & _ & H2 & _). exists o'. split; [exact H1|]. apply H2.
    destruct (with_name_skel o k) as (_ & _ & ->). discriminate.
  - eapply IH; [exact Hin|]. destruct (rename_rest s (snd e) (fst e)) as (_ & _ & ->). exact Ht.
Qed.

(** [refresh] in one equation. *)
Lemma refresh_inv s l s' : refresh s l = Ok s' -> exists n c cs0 f sh, nth_error (st_objs s) l = Some (ONet n c cs0 f sh) /\
  (s' = s /\ (sh_conns (get_sh s sh) = [] \/ sh_mods (get_sh s sh) = []) \/
   exists cs n' b s3,
     sh_conns (get_sh s sh) <> [] /\ sh_mods (get_sh s sh) <> [] /\
     Forall2 (fun m e => fst e = m /\ assoc String.eqb m (sh_mods (get_sh s sh)) = Some (snd e)) (used_names (map clean_conn (sh_conns (get_sh s sh)))) cs /\
     s3 = put_obj (put_sh (renames s cs) sh {| sh_mods := sh_mods (get_sh s sh); sh_conns := map clean_conn (sh_conns (get_sh s sh)); sh_buf := sh_buf (get_sh s sh) |}) l (ONet n' c cs f sh) /\
     nth_error (st_objs (renames s cs)) l = Some (ONet n' c cs0 f sh) /\
     current limit s3 l = Ok b /\ check_buf true b = Ok b /\
     s' = put_obj (put_sh s3 sh {| sh_mods := sh_mods (get_sh s sh); sh_conns := map clean_conn (sh_conns (get_sh s sh)); sh_buf := Some b |}) l (ONet n' c cs (Some (num_free b)) sh)).
Proof.
  unfold ObjModel.refresh. intros H. destruct (get_net s l) as [[[[[n c] cs0] f] sh]|] eqn:E; [|discriminate]. apply get_net_inv in E. cbn [bind] in H.
  exists n, c, cs0, f, sh. split; [exact E|]. set (x := get_sh s sh) in *.
  destruct (sh_conns x) as [|c1 cr] eqn:Ec; [left; injection H as <-; auto|]. destruct (sh_mods x) as [|m1 mr] eqn:Em; [left; injection H as <-; auto|].
  right. rewrite <- Ec, <- Em in *. set (conns := map clean_conn (sh_conns x)) in *.
  destruct (mapM _ (used_names conns)) as [cs|] eqn:EM; [|discriminate]. cbn [bind] in H. fold (renames s cs) in H.
  destruct (renames_frame cs s) as (F & R1 & R2 & R3). destruct (fr_obj F E) as (o' & Ho' & Hs & Hn & [K|K]); [|discriminate].
  destruct o' as [|n' c' cs' f' sh']; [discriminate K|]. cbn in K. injection K as -> -> -> ->.
  destruct (get_net (put_sh (renames s cs) sh _) l) as [[[[[n2 c2] cs2] f2] sh2]|] eqn:E2; [|discriminate]. apply get_net_inv in E2. cbn [put_sh st_objs] in E2.
  rewrite Ho' in E2. injection E2 as <- <- <- <- <-. cbn [bind] in H.
  match type of H with context [ObjModel.current x0 d0 limit ?S l] => set (s3 := S) in * end.
  destruct (current limit s3 l) as [b0|] eqn:EC; [|discriminate]. cbn [bind] in H.
  destruct (check_buf true b0) as [b|] eqn:EB; [|discriminate]. cbn [bind] in H.
  assert (b = b0) by (unfold check_buf in EB; repeat match type of EB with (if ?q then _ else _) = _ => destruct q; [discriminate|] end; congruence). subst b.
  exists cs, n', b0, s3. split; [congruence|]. split; [congruence|]. split.
  { clear -EM. revert cs EM. induction (used_names conns) as [|m l IH]; intros cs EM; cbn in EM; [injection EM as <-; constructor|].
    destruct (assoc String.eqb m (sh_mods x)) as [t|] eqn:Ea; [|discriminate]. cbn in EM.
    destruct (mapM _ l) as [cs'|]; [|discriminate]. cbn in EM. injection EM as <-. constructor; [split; [reflexivity|exact Ea]|]. apply IH. reflexivity. }
  split; [reflexivity|]. split; [exact Ho'|]. split; [exact EC|]. split; [exact EB|]. injection H as <-. reflexivity.
Qed.

Lemma put_obj_frame (s : state) l n c cs f n' cs' f' sh : nth_error (st_objs s) l = Some (ONet n c cs f sh) -> (n <> None -> n' <> None) ->
  frame (Some l) (Some sh) s (put_obj s l (ONet n' c cs' f' sh)).
Proof.
  intros E N. constructor; cbn [put_obj st_objs st_sh].
  - intros k o H. rewrite nth_error_set_nth. destruct (Nat.eqb_spec l k) as [<-|]; [|exists o; auto].
    assert (l < length (st_objs s)) by (apply nth_error_Some; congruence). rewrite (proj2 (Nat.ltb_lt _ _)) by assumption.
    rewrite E in H. injection H as <-. eexists. split; [reflexivity|]. split; [reflexivity|]. split; [exact N|now right].
  - apply le_n.
  - intros i _ _. split; reflexivity.
  - now rewrite set_nth_length.
Qed.

Lemma frame_at (s s' : state) t x l o : frame t x s s' -> nth_error (st_objs s) l = Some o -> exists o', nth_error (st_objs s') l = Some o' /\ sh_of o' = sh_of o.
Proof. intros F H. destruct (fr_obj F H) as (o' & H1 & H2 & _). exists o'. auto. Qed.

Lemma refresh_frame s l s' : refresh s l = Ok s' -> exists o i, nth_error (st_objs s) l = Some o /\ sh_of o = Some i /\ frame (Some l) (Some i) s s'
  /\ st_stack s' = st_stack s /\ length (st_objs s') = length (st_objs s) /\ length (st_sh s') = length (st_sh s).
Proof.
  intros H. destruct (refresh_inv H) as (n & c & cs0 & f & sh & E & [[-> _]|(cs & n' & b & s3 & _ & _ & _ & E3 & Hn & _ & _ & E')]);
    exists (ONet n c cs0 f sh), sh; (split; [exact E|]; split; [reflexivity|]).
  - auto using frame_refl.
  - destruct (renames_frame cs s) as (F & R1 & R2 & R3).
    assert (Ll : l < length (st_objs s)) by (apply nth_error_Some; congruence).
    assert (F3 : frame (Some l) (Some sh) s s3).
    { rewrite E3. eapply frame_trans; [apply frame_weak, F|]. eapply frame_trans; [apply put_sh_frame_at|].
      eapply put_obj_frame; [exact Hn|auto]. }
    assert (E3' : nth_error (st_objs s3) l = Some (ONet n' c cs f sh)).
    { rewrite E3. cbn [put_obj put_sh st_objs]. rewrite nth_error_set_nth, Nat.eqb_refl, R3, (proj2 (Nat.ltb_lt _ _) Ll). reflexivity. }
    split; [|rewrite E', E3; cbn; rewrite ?set_nth_length; auto].
    + rewrite E'. eapply frame_trans; [exact F3|]. eapply frame_trans; [apply put_sh_frame_at|]. eapply put_obj_frame; [exact E3'|auto].
    + rewrite R1, R2, R3. auto.
Qed.
(** ** Success of [current] *)
Lemma mapM_In A B (f : A -> res B) l : forall l', mapM f l = Ok l' -> forall a, In a l -> exists b, f a = Ok b /\ In b l'.
Proof.
  induction l as [|x l IH]; intros l' H a Ha; [contradiction|]. cbn in H. destruct (f x) as [b|] eqn:E; [|discriminate]. cbn in H.
  destruct (mapM f l) as [bs|] eqn:E2; [|discriminate]. injection H as <-. destruct Ha as [<-|Ha]; [exists b; split; [exact E|now left]|].
  destruct (IH bs eq_refl a Ha) as (b' & H1 & H2). exists b'. split; [exact H1|now right].
Qed.
Lemma mapM_same A B (f g : A -> res B) l : (forall a, In a l -> f a = g a) -> mapM f l = mapM g l.
Proof.
  induction l as [|x l IH]; intros H; [reflexivity|]. cbn. rewrite H by now left. destruct (g x); [|reflexivity]. cbn. rewrite IH; [reflexivity|].
  intros a1 Ha. apply H. now right.
Qed.
Lemma current_net f (s : state) l n c cs fr sh b : nth_error (st_objs s) l = Some (ONet n c cs fr sh) -> current f s l = Ok b ->
  exists f' re st, f = S f' /\ mapM (fun e => do b <- current f' s (snd e); Ok (fst e, b)) cs = Ok re
    /\ mapM (fun e => do b <- stored s (snd e); Ok (fst e, b)) cs = Ok st /\ filled re st (sh_conns (get_sh s sh)) = Ok b.
Proof.
  intros E H. destruct f as [|f]; [discriminate|]. cbn [ObjModel.current] in H. rewrite (proj2 (get_inv s l _) E) in H. cbn [bind] in H.
  destruct (mapM _ cs) as [re|] eqn:E1; [|discriminate]. cbn [bind] in H. destruct (mapM (fun e => do b <- stored s (snd e); Ok (fst e, b)) cs) as [st|] eqn:E2; [|discriminate].
  exists f, re, st. auto.
Qed.
Lemma current_child f (s : state) l n c cs fr sh b k t : nth_error (st_objs s) l = Some (ONet n c cs fr sh) -> current f s l = Ok b -> In (k, t) cs ->
  exists f' bt st, f = S f' /\ current f' s t = Ok bt /\ stored s t = Ok st.
Proof.
  intros E H Hin. destruct (current_net E H) as (f' & re & st & -> & E1 & E2 & _).
  destruct (mapM_In E1 Hin) as (x & Hx & _). destruct (mapM_In E2 Hin) as (y & Hy & _). cbn [fst snd] in Hx, Hy.
  destruct (current f' s t) as [bt|] eqn:Ec; [|discriminate]. destruct (stored s t) as [bs|] eqn:Es; [|discriminate]. exists f', bt, bs. auto.
Qed.
Lemma current_exists f (s : state) l b : current f s l = Ok b -> exists o, nth_error (st_objs s) l = Some o.
Proof.
  destruct f as [|f]; [discriminate|]. cbn [ObjModel.current]. destruct (get s l) as [o|] eqn:E; [|discriminate]. intros _. exists o. now apply get_inv.
Qed.
(** A network is not among its own components. *)
Lemma current_not_self (s : state) l n c cs fr sh k : nth_error (st_objs s) l = Some (ONet n c cs fr sh) -> In (k, l) cs -> forall f b, current f s l <> Ok b.
Proof.
  intros E Hin f. induction f as [|f IH]; intros b H; [discriminate|]. destruct (current_child E H Hin) as (f' & bt & _ & Ef & H1 & _).
  injection Ef as <-. exact (IH bt H1).
Qed.
(** More fuel changes nothing. *)
Lemma current_S f : forall (s : state) l b, current f s l = Ok b -> current (S f) s l = Ok b.
Proof.
  induction f as [|f IH]; intros s l b H; [discriminate|]. destruct (current_exists H) as (o & E). destruct o as [n b'|n c cs fr sh].
  - cbn [ObjModel.current] in H |- *. rewrite (proj2 (get_inv s l _) E) in H |- *. exact H.
  - destruct (current_net E H) as (f' & re & st & Ef & E1 & E2 & E3). injection Ef as <-.
    change (current (S (S f)) s l) with (do o <- get s l; match o with OComp _ b => Ok b | ONet _ _ cs _ sh =>
      do re <- mapM (fun e => do b <- current (S f) s (snd e); Ok (fst e, b)) cs;
      do st <- mapM (fun e => do b <- stored s (snd e); Ok (fst e, b)) cs; filled re st (sh_conns (get_sh s sh)) end).
    rewrite (proj2 (get_inv s l _) E). cbn [bind].
    replace (mapM (fun e => do b <- current (S f) s (snd e); Ok (fst e, b)) cs) with (Ok re); [cbn [bind]; rewrite E2; exact E3|].
    rewrite <- E1. apply mapM_same. intros [k t] Hin. cbn [fst snd]. destruct (current_child E H Hin) as (f' & bt & bs & Ef & H1 & H2).
    injection Ef as <-. rewrite H1, (IH s t bt H1). reflexivity.
Qed.
Lemma current_le f g (s : state) l b : f <= g -> current f s l = Ok b -> current g s l = Ok b.
Proof. intros H. induction H as [|g _ IH]; [auto|]. intros E. apply current_S, IH, E. Qed.
Lemma current_fun f g (s : state) l b b' : current f s l = Ok b -> current g s l = Ok b' -> b = b'.
Proof.
  intros H1 H2. pose proof (current_le (Nat.le_max_l f g) H1) as E1. pose proof (current_le (Nat.le_max_r f g) H2) as E2. congruence.
Qed.

(** ** Invariants *)
Lemma nth_in_range A (l : list A) i a : nth_error l i = Some a -> i < length l.
Proof. intros H. apply nth_error_Some. congruence. Qed.
Lemma put_nth A (l : list A) i a : i < length l -> nth_error (set_nth l i a) i = Some a.
Proof. intros H. rewrite nth_error_set_nth, Nat.eqb_refl, (proj2 (Nat.ltb_lt _ _) H). reflexivity. Qed.

(** What [refresh] leaves in the state. *)
Lemma refresh_state s l s' n c cs0 f sh : nth_error (st_objs s) l = Some (ONet n c cs0 f sh) -> refresh s l = Ok s' ->
  (forall k o, k <> l -> nth_error (st_objs s') k = Some o -> exists o0, nth_error (st_objs s) k = Some o0 /\ skel o = skel o0 /\ (name_of o0 <> None -> name_of o <> None))
  /\ (s' = s \/ exists n' cs (b : buf), nth_error (st_objs s') l = Some (ONet n' c cs (Some (num_free b)) sh)
        /\ forall k t, In (k, t) cs -> exists o, nth_error (st_objs s') t = Some o /\ name_of o <> None).
Proof.
  intros E0 H. split.
  - destruct (refresh_frame H) as (o0 & i & E & Hs & F & _ & L & _). intros k o Hk Ho.
    destruct (nth_error (st_objs s) k) as [o1|] eqn:E1; [|apply nth_error_None in E1; pose proof (nth_in_range Ho); lia].
    destruct (fr_obj F E1) as (o2 & H2 & _ & N & [K|K]); [|congruence]. exists o1. rewrite Ho in H2. injection H2 as <-. auto.
  - destruct (refresh_inv H) as (n1 & c1 & cs1 & f1 & sh1 & E & Q). rewrite E0 in E. injection E as <- <- <- <- <-.
    destruct Q as [[-> _]|(cs & n' & b & s3 & _ & _ & _ & E3 & Hn & Hc & _ & E')]; [now left|]. right. exists n', cs, b.
    destruct (renames_frame cs s) as (F & R1 & R2 & R3). pose proof (nth_in_range E0) as Ll.
    assert (L3 : l < length (st_objs s3)) by (rewrite E3; cbn [put_obj put_sh st_objs]; rewrite set_nth_length, R3; exact Ll).
    assert (E3' : nth_error (st_objs s3) l = Some (ONet n' c cs f sh)) by (rewrite E3; cbn [put_obj put_sh st_objs]; apply put_nth; rewrite R3; exact Ll).
    split; [rewrite E'; cbn [put_obj put_sh st_objs]; now apply put_nth|].
    intros k t Hin. destruct (current_child E3' Hc Hin) as (f' & bt & _ & _ & Ht & _). apply current_exists in Ht as (o3 & Ho3).
    assert (Lt : t < length (st_objs s)).
    { pose proof (nth_in_range Ho3) as Q. rewrite E3 in Q. cbn [put_obj put_sh st_objs] in Q. rewrite set_nth_length, R3 in Q. exact Q. }
    destruct (renames_named Hin Lt) as (o & Ho & No).
    assert (F3 : frame (Some l) (Some sh) (renames s cs) s').
    { apply (@frame_trans _ _ _ s3); [|rewrite E'; eapply frame_trans; [apply put_sh_frame_at|]].
      - rewrite E3. eapply frame_trans; [apply put_sh_frame_at|]. eapply put_obj_frame; [exact Hn|auto].
      - eapply put_obj_frame; [exact E3'|auto]. }
    destruct (fr_obj F3 Ho) as (o' & Ho' & _ & N & _). exists o'. split; [exact Ho'|]. apply N, No.
Qed.

Lemma refresh_good s l s' : good s -> refresh s l = Ok s' -> good s'.
Proof.
  intros (W & N & L) H. destruct (refresh_frame H) as (o0 & i & E & Hs & F & _ & Lo & Ls).
  destruct o0 as [|n c cs0 f sh]; [discriminate|]. cbn in Hs. injection Hs as <-.
  destruct (refresh_state E H) as (S1 & S2).
  assert (Sl : exists o', nth_error (st_objs s') l = Some o' /\ sh_of o' = Some sh).
  { destruct (fr_obj F E) as (o' & H1 & H2 & _). exists o'. auto. }
  split; [|split].
  - intros k o j Ho Hj. destruct (Nat.eq_dec k l) as [->|Hk].
    + destruct Sl as (o' & H1 & H2). rewrite Ho in H1. injection H1 as <-. rewrite Ls. apply (W l _ j E). cbn. congruence.
    + destruct (S1 k o Hk Ho) as (o1 & Ho1 & K & _). rewrite Ls. apply (W k o1 j Ho1). destruct o, o1; cbn in K, Hj |- *; congruence.
  - intros k n1 c1 cs1 f1 sh1 Hk kk t Hin. destruct (Nat.eq_dec k l) as [->|Hne].
    + destruct S2 as [->|(n' & cs & b & Hl & HN)]; [eapply N; eassumption|]. rewrite Hl in Hk. injection Hk as <- <- <- <- <-. eapply HN, Hin.
    + destruct (S1 k _ Hne Hk) as (o1 & Ho1 & K & _). destruct o1 as [|n2 c2 cs2 f2 sh2]; [discriminate K|]. cbn in K. injection K as -> -> -> ->.
      destruct (N k n2 c2 cs2 f2 sh2 Ho1 kk t Hin) as (o2 & Ho2 & No2). destruct (fr_obj F Ho2) as (o3 & Ho3 & _ & N3 & _). exists o3. auto.
  - intros k n1 b Hk. destruct (Nat.eq_dec k l) as [->|Hne].
    + destruct Sl as (o' & H1 & H2). rewrite Hk in H1. injection H1 as <-. discriminate H2.
    + destruct (S1 k _ Hne Hk) as (o1 & Ho1 & K & _). destruct o1 as [n2 b2|]; [|discriminate K]. cbn in K. injection K as ->. eapply L, Ho1.
Qed.

(** States with the same objects and as many shared parts. *)
Lemma good_same (s s' : state) : st_objs s' = st_objs s -> length (st_sh s') = length (st_sh s) -> good s -> good s'.
Proof. intros E1 E2 (W & N & L). repeat split; unfold wf, named, leaves; rewrite ?E1, ?E2; assumption. Qed.

Lemma good_alloc s o : good s ->
  match o with
  | OComp _ b => check_buf false b = Ok b
  | ONet _ _ cs _ sh => sh < length (st_sh s) /\ forall k t, In (k, t) cs -> exists o, nth_error (st_objs s) t = Some o /\ name_of o <> None
  end -> good (fst (alloc s o)).
Proof.
  intros (W & N & L) Ho. pose proof (alloc_frame s o) as F. repeat split.
  - intros l o1 i. cbn [alloc fst st_objs st_sh]. intros H Hi. destruct (Nat.lt_ge_cases l (length (st_objs s))) as [Hl|Hl].
    + rewrite nth_error_app1 in H by exact Hl. eapply W; eassumption.
    + rewrite nth_error_app2 in H by exact Hl. destruct (l - length (st_objs s)) as [|m]; [injection H as <-|destruct m; discriminate].
      destruct o as [|]; [discriminate|]. cbn in Hi. injection Hi as <-. apply Ho.
  - intros l n c cs f sh H k t Hin. assert (Q : exists o1, nth_error (st_objs s) t = Some o1 /\ name_of o1 <> None).
    { cbn [alloc fst st_objs st_sh] in H. destruct (Nat.lt_ge_cases l (length (st_objs s))) as [Hl|Hl].
      + rewrite nth_error_app1 in H by exact Hl. eapply N; eassumption.
      + rewrite nth_error_app2 in H by exact Hl. destruct (l - length (st_objs s)) as [|m]; [injection H as ->|destruct m; discriminate].
        apply (proj2 Ho k t Hin). }
    destruct Q as (o1 & Ho1 & No). destruct (fr_obj F Ho1) as (o2 & Ho2 & _ & N2 & _). exists o2. auto.
  - intros l n b H. cbn [alloc fst st_objs st_sh] in H. destruct (Nat.lt_ge_cases l (length (st_objs s))) as [Hl|Hl].
    + rewrite nth_error_app1 in H by exact Hl. eapply L; eassumption.
    + rewrite nth_error_app2 in H by exact Hl. destruct (l - length (st_objs s)) as [|m]; [injection H as ->|destruct m; discriminate]. exact Ho.
Qed.
Lemma good_alloc_net s n c : good s -> good (fst (alloc_net s n c)).
Proof.
  intros (W & N & L). pose proof (alloc_net_frame s n c) as F. repeat split.
  - intros l o1 i. cbn [alloc_net fst st_objs st_sh]. rewrite app_length. cbn [length]. intros H Hi. destruct (Nat.lt_ge_cases l (length (st_objs s))) as [Hl|Hl].
    + rewrite nth_error_app1 in H by exact Hl. pose proof (W l o1 i H Hi). lia.
    + rewrite nth_error_app2 in H by exact Hl. destruct (l - length (st_objs s)) as [|m]; [injection H as <-|destruct m; discriminate]. cbn in Hi. injection Hi as <-. lia.
  - intros l n1 c1 cs f sh H k t Hin. cbn [alloc_net fst st_objs st_sh] in H. destruct (Nat.lt_ge_cases l (length (st_objs s))) as [Hl|Hl].
    + rewrite nth_error_app1 in H by exact Hl. destruct (N l n1 c1 cs f sh H k t Hin) as (o1 & Ho1 & No).
      destruct (fr_obj F Ho1) as (o2 & Ho2 & _ & N2 & _). exists o2. auto.
    + rewrite nth_error_app2 in H by exact Hl. destruct (l - length (st_objs s)) as [|m]; [injection H as <- <- <- <- <-|destruct m; discriminate]. contradiction.
  - intros l n1 b H. cbn [alloc_net fst st_objs st_sh] in H. destruct (Nat.lt_ge_cases l (length (st_objs s))) as [Hl|Hl].
    + rewrite nth_error_app1 in H by exact Hl. eapply L; eassumption.
    + rewrite nth_error_app2 in H by exact Hl. destruct (l - length (st_objs s)) as [|m]; [discriminate|destruct m; discriminate].
Qed.
(** ** Networks that agree with their parts *)
Definition fresh (s : state) (l : nat) : Prop := forall n c cs f sh b, nth_error (st_objs s) l = Some (ONet n c cs f sh) ->
  sh_buf (get_sh s sh) = Some b ->
  sh_conns (get_sh s sh) <> [] /\ sh_mods (get_sh s sh) <> [] /\ map fst cs = used_names (sh_conns (get_sh s sh))
  /\ map clean_conn (sh_conns (get_sh s sh)) = sh_conns (get_sh s sh) /\ current limit s l = Ok b /\ check_buf true b = Ok b.
Definition apart (x : option nat) (o : obj) : Prop := match x with None => True | Some i => sh_of o <> Some i end.
(** No network has a component with the shared part [x]; only object [t] has it. *)
Definition unused (x : option nat) (s : state) : Prop := forall l n c cs f sh, nth_error (st_objs s) l = Some (ONet n c cs f sh) ->
  forall k t o, In (k, t) cs -> nth_error (st_objs s) t = Some o -> apart x o.
Definition sole (t x : option nat) (s : state) : Prop := forall l o, nth_error (st_objs s) l = Some o -> apart x o -> Some l <> t.

(** [_modules] only grow. *)
Definition mods_grow (s s' : state) : Prop := forall i, i < length (st_sh s) -> sh_mods (get_sh s i) <> [] -> sh_mods (get_sh s' i) <> [].

Section Frame.
Variables (t x : option nat) (s s' : state).
Hypothesis W : wf s.
Hypothesis N : named s.
Hypothesis F : frame t x s s'.
Hypothesis U : unused x s.
Hypothesis So : sole t x s.

Lemma frame_skel l o : nth_error (st_objs s) l = Some o -> apart x o -> exists o', nth_error (st_objs s') l = Some o' /\ skel o' = skel o.
Proof.
  intros H A. destruct (fr_obj F H) as (o' & H1 & _ & _ & [K|K]); [exists o'; auto|]. exfalso. exact (So H A K).
Qed.
Lemma apart_sh l o i : nth_error (st_objs s) l = Some o -> apart x o -> sh_of o = Some i ->
  sh_conns (get_sh s' i) = sh_conns (get_sh s i) /\ sh_buf (get_sh s' i) = sh_buf (get_sh s i).
Proof.
  intros H A E. apply (fr_sh F); [eapply W; eassumption|]. intros <-. cbn in A. congruence.
Qed.
Lemma stored_same l o : nth_error (st_objs s) l = Some o -> apart x o -> stored s' l = stored s l.
Proof.
  intros H A. destruct (frame_skel H A) as (o' & H' & K). unfold stored. rewrite (proj2 (get_inv s l _) H), (proj2 (get_inv s' l _) H'). cbn [bind].
  destruct o as [n b|n c cs f sh], o' as [n' b'|n' c' cs' f' sh']; cbn in K; try discriminate; injection K; intros; subst; [reflexivity|].
  destruct (apart_sh H A eq_refl) as [_ ->]. reflexivity.
Qed.
Lemma current_same f : forall l o, nth_error (st_objs s) l = Some o -> apart x o -> current f s' l = current f s l.
Proof.
  induction f as [|f IH]; intros l o H A; [reflexivity|]. destruct (frame_skel H A) as (o' & H' & K). cbn [ObjModel.current].
  rewrite (proj2 (get_inv s l _) H), (proj2 (get_inv s' l _) H'). cbn [bind].
  destruct o as [n b|n c cs fr sh], o' as [n' b'|n' c' cs' fr' sh']; cbn in K; try discriminate; injection K; intros; subst; [reflexivity|].
  assert (Hc : forall e, In e cs -> exists o, nth_error (st_objs s) (snd e) = Some o /\ apart x o).
  { intros [k q] Hin. destruct (N H Hin) as (oq & Hq & _). exists oq. split; [exact Hq|]. eapply U; eassumption. }
  replace (mapM (fun e => do b <- current f s' (snd e); Ok (fst e, b)) cs) with (mapM (fun e => do b <- current f s (snd e); Ok (fst e, b)) cs).
  2:{ apply mapM_same. intros e He. destruct (Hc e He) as (oq & Hq & Aq). now rewrite (IH _ _ Hq Aq). }
  replace (mapM (fun e => do b <- stored s' (snd e); Ok (fst e, b)) cs) with (mapM (fun e => do b <- stored s (snd e); Ok (fst e, b)) cs).
  2:{ apply mapM_same. intros e He. destruct (Hc e He) as (oq & Hq & Aq). now rewrite (stored_same Hq Aq). }
  destruct (apart_sh H A eq_refl) as [-> _]. reflexivity.
Qed.
Hypothesis G : mods_grow s s'.
Lemma fresh_frame l o : nth_error (st_objs s) l = Some o -> apart x o -> fresh s l -> fresh s' l.
Proof.
  intros H A Fr n c cs f sh b E Eb. destruct (frame_skel H A) as (o' & H' & K). rewrite E in H'. injection H' as <-.
  destruct o as [|n0 c0 cs0 f0 sh0]; [discriminate K|]. cbn in K. injection K as -> -> -> ->.
  destruct (apart_sh H A eq_refl) as [E1 E2]. rewrite E2 in Eb. destruct (Fr _ _ _ _ _ _ H Eb) as (A1 & A2 & A3 & A4 & A5 & A6).
  rewrite E1. repeat split; auto.
  - apply G; [|exact A2]. eapply W; [exact H|reflexivity].
  - rewrite (current_same _ H A). exact A5.
Qed.
End Frame.

Lemma dict_set_nonempty K V (eqb : K -> K -> bool) k (v : V) d : dict_set eqb k v d <> [].
Proof. destruct d as [|[k' v'] d]; cbn; [discriminate|]. destruct (eqb k k'); discriminate. Qed.
Lemma mods_grow_refl s : mods_grow s s. Proof. intros i _ H. exact H. Qed.
Lemma mods_grow_trans t x a b c : frame t x a b -> mods_grow a b -> mods_grow b c -> mods_grow a c.
Proof. intros F H1 H2 i Hi H. apply H2; [pose proof (fr_len F); lia|]. now apply H1. Qed.
Lemma put_sh_grow (s : state) i y : (sh_mods (get_sh s i) <> [] -> sh_mods y <> []) -> mods_grow s (put_sh s i y).
Proof.
  intros H j Hj Hm. unfold get_sh, put_sh; cbn [st_sh]. destruct (Nat.eq_dec i j) as [<-|Hn].
  - rewrite nth_set_nth_same by exact Hj. now apply H.
  - rewrite nth_set_nth by exact Hn. exact Hm.
Qed.
Lemma add_comp_grow s net key c s' : add_comp s net key c = Ok s' -> mods_grow s s'.
Proof.
  intros H. apply add_comp_inv in H as (n & cl & cs & f & sh & o & _ & _ & _ & _ & _ & ->). apply put_sh_grow. intros _. cbn. apply dict_set_nonempty.
Qed.
Lemma register_grow s name c s' : register s name c = Ok s' -> mods_grow s s'.
Proof.
  unfold ObjModel.register. intros H. destruct (st_stack s); [injection H as <-; apply mods_grow_refl|]. destruct name; [|injection H as <-; apply mods_grow_refl].
  eapply add_comp_grow, H.
Qed.
Lemma put_obj_grow (s : state) l o : mods_grow s (put_obj s l o). Proof. intros i _ H. exact H. Qed.
Lemma refresh_grow s l s' : refresh s l = Ok s' -> mods_grow s s'.
Proof.
  intros H. destruct (refresh_inv H) as (n & c & cs0 & f & sh & E & [[-> _]|(cs & n' & b & s3 & _ & Hm & _ & E3 & _ & _ & _ & E')]); [apply mods_grow_refl|].
  intros i Hi Hi'. rewrite E', E3. unfold get_sh, put_obj, put_sh; cbn [st_sh]. destruct (renames_frame cs s) as (_ & R1 & _ & _). rewrite R1.
  destruct (Nat.eq_dec sh i) as [<-|Hn].
  - rewrite nth_set_nth_same by (rewrite set_nth_length; exact Hi). exact Hm.
  - rewrite !nth_set_nth by exact Hn. exact Hi'.
Qed.
Lemma get_sh_put (s : state) i y : i < length (st_sh s) -> get_sh (put_sh s i y) i = y.
Proof. intros H. unfold get_sh, put_sh; cbn [st_sh]. now apply nth_set_nth_same. Qed.

Lemma refresh_fresh s l s' n c cs0 f0 sh : good s -> nth_error (st_objs s) l = Some (ONet n c cs0 f0 sh) ->
  unused (Some sh) s -> sole (Some l) (Some sh) s -> (forall k o, nth_error (st_objs s) k = Some o -> sh_of o = Some sh -> k = l) ->
  (forall k, k <> l -> fresh s k) -> (sh_buf (get_sh s sh) <> None -> sh_conns (get_sh s sh) <> [] /\ sh_mods (get_sh s sh) <> []) ->
  refresh s l = Ok s' -> forall k, fresh s' k.
Proof.
  intros Gs E U So P Fr Hb H k. pose proof Gs as (W & N & L).
  destruct (refresh_frame H) as (o0 & i & Eo & Hs & F & _ & Lo & Ls). rewrite E in Eo. injection Eo as <-. cbn in Hs. injection Hs as <-.
  destruct (Nat.eq_dec k l) as [->|Hk].
  2:{ intros n1 c1 cs1 f1 sh1 b1 E1 Eb1. destruct (nth_error (st_objs s) k) as [o|] eqn:Ek; [|apply nth_error_None in Ek; pose proof (nth_in_range E1); lia].
      assert (A : apart (Some sh) o) by (intros Q; apply Hk; eapply P; eassumption).
      exact (@fresh_frame (Some l) (Some sh) s s' W N F U So (refresh_grow H) k o Ek A (Fr k Hk) n1 c1 cs1 f1 sh1 b1 E1 Eb1). }
  destruct (refresh_inv H) as (n1 & c1 & cs1 & f1 & sh1 & E1 & Q). rewrite E in E1. injection E1 as <- <- <- <- <-.
  destruct Q as [[-> Q]|(cs & n' & b & s3 & Hc & Hm & HF & E3 & Hn & Hcur & Hck & E')].
  { intros n1 c1 cs1 f1 sh1 b1 E1 Eb1. rewrite E in E1. injection E1 as <- <- <- <- <-. destruct Hb as [Hb1 Hb2]; [congruence|]. destruct Q; contradiction. }
  pose proof (nth_in_range E) as Ll. assert (Lsh : sh < length (st_sh s)) by (eapply W; [exact E|reflexivity]).
  destruct (renames_frame cs s) as (F1 & R1 & R2 & R3).
  assert (L3 : length (st_objs s3) = length (st_objs s)) by (rewrite E3; cbn [put_obj put_sh st_objs]; rewrite set_nth_length; exact R3).
  assert (L3s : length (st_sh s3) = length (st_sh s)) by (rewrite E3; cbn [put_obj put_sh st_sh]; rewrite set_nth_length, R1; reflexivity).
  assert (E3' : nth_error (st_objs s3) l = Some (ONet n' c cs f0 sh)) by (rewrite E3; cbn [put_obj put_sh st_objs]; apply put_nth; rewrite R3; exact Ll).
  assert (G3 : get_sh s3 sh = {| sh_mods := sh_mods (get_sh s sh); sh_conns := map clean_conn (sh_conns (get_sh s sh)); sh_buf := sh_buf (get_sh s sh) |}).
  { rewrite E3. unfold get_sh at 1, put_obj; cbn [st_sh]. apply get_sh_put. rewrite R1. exact Lsh. }
  assert (F3 : frame (Some l) (Some sh) s s3).
  { rewrite E3. eapply frame_trans; [apply frame_weak, F1|]. eapply frame_trans; [apply put_sh_frame_at|]. eapply put_obj_frame; [exact Hn|auto]. }
  (* objects of s3 come from s *)
  assert (B : forall q o, nth_error (st_objs s3) q = Some o -> exists o1, nth_error (st_objs s) q = Some o1 /\ sh_of o = sh_of o1 /\ (q <> l -> skel o = skel o1)).
  { intros q o Ho. destruct (nth_error (st_objs s) q) as [o1|] eqn:Eq; [|apply nth_error_None in Eq; pose proof (nth_in_range Ho); lia].
    destruct (fr_obj F3 Eq) as (o2 & H2 & H3 & _ & K). rewrite Ho in H2. injection H2 as <-. exists o1. repeat split; auto. intros Hq. destruct K as [K|K]; [exact K|congruence]. }
  assert (Hch : forall q t, In (q, t) cs -> exists o, nth_error (st_objs s3) t = Some o /\ apart (Some sh) o).
  { intros q t Hin. destruct (current_child E3' Hcur Hin) as (f' & bt & _ & _ & Ht & _). apply current_exists in Ht as (o & Ho). exists o. split; [exact Ho|].
    intros Hso. destruct (B t o Ho) as (o1 & Ho1 & Es1 & _). assert (t = l) by (eapply P; [exact Ho1|congruence]). subst t.
    exact (current_not_self E3' Hin Hcur). }
  assert (N3 : named s3).
  { intros q n2 c2 cs2 f2 sh2 Hq kk t Hin. destruct (Nat.eq_dec q l) as [->|Hne].
    - rewrite E3' in Hq. injection Hq as <- <- <- <- <-. 
      assert (Lt : t < length (st_objs s)) by (destruct (Hch _ _ Hin) as (o & Ho & _); rewrite <- L3; eapply nth_in_range, Ho).
      destruct (renames_named Hin Lt) as (o & Ho & No).
      assert (F2 : frame (Some l) (Some sh) (renames s cs) s3) by (rewrite E3; eapply frame_trans; [apply put_sh_frame_at|]; eapply put_obj_frame; [exact Hn|auto]).
      destruct (fr_obj F2 Ho) as (o' & Ho' & _ & Nn & _). exists o'. auto.
    - destruct (B q _ Hq) as (o1 & Ho1 & _ & K). specialize (K Hne). destruct o1 as [|n3 c3 cs3 f3 sh3]; [discriminate K|]. cbn in K. injection K as -> -> -> ->.
      destruct (N _ _ _ _ _ _ Ho1 kk t Hin) as (o2 & Ho2 & No2). destruct (fr_obj F3 Ho2) as (o3 & Ho3 & _ & Nn & _). exists o3. auto. }
  assert (W3 : wf s3).
  { intros q o i Ho Hi. destruct (B q o Ho) as (o1 & Ho1 & Es & _). rewrite L3s. eapply W; [exact Ho1|congruence]. }
  assert (U3 : unused (Some sh) s3).
  { intros q n2 c2 cs2 f2 sh2 Hq kk t o Hin Ho. destruct (Nat.eq_dec q l) as [->|Hne].
    - rewrite E3' in Hq. injection Hq as <- <- <- <- <-. destruct (Hch _ _ Hin) as (o' & Ho' & A). congruence.
    - destruct (B q _ Hq) as (o1 & Ho1 & _ & K). specialize (K Hne). destruct o1 as [|n3 c3 cs3 f3 sh3]; [discriminate K|]. cbn in K. injection K as -> -> -> ->.
      destruct (B t o Ho) as (o2 & Ho2 & Es & _). pose proof (U _ _ _ _ _ _ Ho1 kk t o2 Hin Ho2) as A. unfold apart in *. congruence. }
  assert (S3 : sole (Some l) (Some sh) s3).
  { intros q o Ho A Q. injection Q as ->. rewrite E3' in Ho. injection Ho as <-. apply A. reflexivity. }
  assert (F' : frame (Some l) (Some sh) s3 s').
  { rewrite E'. eapply frame_trans; [apply put_sh_frame_at|]. eapply put_obj_frame; [exact E3'|auto]. }
  assert (G' : get_sh s' sh = {| sh_mods := sh_mods (get_sh s sh); sh_conns := map clean_conn (sh_conns (get_sh s sh)); sh_buf := Some b |}).
  { rewrite E'. unfold get_sh at 1, put_obj; cbn [st_sh]. apply get_sh_put. rewrite L3s. exact Lsh. }
  assert (El : nth_error (st_objs s') l = Some (ONet n' c cs (Some (num_free b)) sh)) by (rewrite E'; cbn [put_obj put_sh st_objs]; apply put_nth; rewrite L3; exact Ll).
  intros n2 c2 cs2 f2 sh2 b2 E2 Eb2. rewrite El in E2. injection E2 as <- <- <- <- <-. rewrite G' in Eb2 |- *. cbn [sh_buf sh_conns sh_mods] in *. injection Eb2 as <-.
  split; [intros Q; destruct (sh_conns (get_sh s sh)); [contradiction|discriminate]|]. split; [exact Hm|]. split.
  { clear -HF. induction HF as [|m e ms es [H1 H2] _ IH]; [reflexivity|]. cbn. now rewrite H1, IH. }
  split; [apply clean_idems|]. split; [|exact Hck].
  destruct (current_net E3' Hcur) as (f' & re & st & Ef & M1 & M2 & M3). rewrite Ef. cbn [ObjModel.current].
  rewrite (proj2 (get_inv s' l _) El). cbn [bind].
  replace (mapM (fun e => do b <- current f' s' (snd e); Ok (fst e, b)) cs) with (Ok re).
  2:{ rewrite <- M1. apply mapM_same. intros [q t] Hin. cbn [fst snd]. destruct (Hch q t Hin) as (o & Ho & A).
      now rewrite (@current_same _ _ s3 s' W3 N3 F' U3 S3 f' t o Ho A). }
  replace (mapM (fun e => do b <- stored s' (snd e); Ok (fst e, b)) cs) with (Ok st).
  2:{ rewrite <- M2. apply mapM_same. intros [q t] Hin. cbn [fst snd]. destruct (Hch q t Hin) as (o & Ho & A).
      rewrite (stored_same W3 F' U3 S3 Ho A). reflexivity. }
  cbn [bind]. rewrite G'. cbn [sh_conns]. rewrite G3 in M3. exact M3.
Qed.
(** ** Statements *)
(** A change that concerns new objects and names only. *)
Record calm (s s' : state) : Prop := { ca_frame : frame None None s s'; ca_grow : mods_grow s s'; ca_stack : st_stack s' = st_stack s }.
Lemma calm_refl s : calm s s. Proof. split; [apply frame_refl|apply mods_grow_refl|reflexivity]. Qed.
Lemma calm_trans a b c : calm a b -> calm b c -> calm a c.
Proof. clear limit reserved x0 d0.
  intros [F1 G1 S1] [F2 G2 S2]. split; [eapply frame_trans; eassumption|eapply mods_grow_trans; eassumption|congruence].
Qed.
Lemma fresh_calm s s' k : good s -> calm s s' -> k < length (st_objs s) -> fresh s k -> fresh s' k.
Proof.
  intros (W & N & _) [F G _] Hk. destruct (nth_error (st_objs s) k) as [o|] eqn:E; [|apply nth_error_None in E; lia].
  refine (@fresh_frame None None s s' W N F _ _ G k o E I).
  - intros l n c cs f sh _ q t o' _ _. exact I.
  - intros l o' _ _ Q. discriminate Q.
Qed.
Lemma fresh_out s k : length (st_objs s) <= k -> fresh s k.
Proof. intros H n c cs f sh b E. apply nth_in_range in E. lia. Qed.

Lemma alloc_calm (s : state) o : calm s (fst (alloc s o)).
Proof. split; [apply alloc_frame|intros i _ H; exact H|reflexivity]. Qed.
Lemma alloc_net_calm (s : state) n c : calm s (fst (alloc_net s n c)).
Proof.
  split; [apply alloc_net_frame| |reflexivity]. intros i Hi H. unfold get_sh in *; cbn [alloc_net fst st_sh]. rewrite app_nth1 by exact Hi. exact H.
Qed.
Lemma add_comp_calm s net key c s' : add_comp s net key c = Ok s' -> calm s s' /\ st_objs s' = st_objs s /\ length (st_sh s') = length (st_sh s).
Proof.
  intros H. destruct (add_comp_frame H) as (A & B & C & E). split; [split; [exact A|eapply add_comp_grow, H|exact C]|auto].
Qed.
Lemma register_calm s name c s' : register s name c = Ok s' -> calm s s' /\ st_objs s' = st_objs s /\ length (st_sh s') = length (st_sh s).
Proof.
  intros H. destruct (register_frame H) as (A & B & C & E). split; [split; [exact A|eapply register_grow, H|exact C]|auto].
Qed.

Lemma check_same nw (b b' : buf) : check_buf nw b = Ok b' -> b' = b.
Proof.
  unfold check_buf. intros H. repeat match type of H with (if ?q then _ else _) = _ => destruct q; [discriminate|] end. congruence.
Qed.
Lemma new_comp_ok s name b s' l : good s -> new_comp s name b = Ok (s', l) -> calm s s' /\ good s' /\ l = length (st_objs s)
  /\ st_objs s' = st_objs s ++ [OComp name b] /\ length (st_sh s') = length (st_sh s).
Proof. clear limit x0 d0.
  intros G. unfold ObjModel.new_comp. cbn [alloc]. intros H. destruct (register _ name _) as [s1|] eqn:E; [|discriminate]. cbn [bind] in H.
  destruct (check_buf false b) as [b1|] eqn:Ec; [|discriminate]. cbn [bind] in H. injection H as <- <-. pose proof (check_same Ec); subst b1.
  destruct (register_calm E) as (C & O & Ls). cbn [st_objs] in O. split; [eapply calm_trans; [apply (alloc_calm s (OComp name b))|exact C]|].
  split; [apply (@good_same (fst (alloc s (OComp name b))) s1 O Ls), (good_alloc (o := OComp name b) G); exact Ec|]. split; [reflexivity|]. split; [exact O|exact Ls].
Qed.

(** The state of [Network.__init__] before [_set_buffers]. *)
Lemma new_net_before s name cls cs conns s' l : good s -> new_net s name cls cs conns = Ok (s', l) ->
  l = length (st_objs s) /\ exists s2, calm s s2 /\ good s2 /\ st_objs s2 = st_objs s ++ [ONet name cls [] None (length (st_sh s))]
    /\ length (st_sh s2) = S (length (st_sh s)) /\ sh_buf (get_sh s2 (length (st_sh s))) = None /\ refresh s2 l = Ok s'.
Proof.
  intros G. unfold ObjModel.new_net. cbn [alloc_net]. set (s0 := {| st_objs := _; st_sh := _; st_stack := _ |}). intros H.
  destruct (register s0 name (length (st_objs s))) as [s1|] eqn:E1; [|discriminate]. cbn [bind] in H.
  destruct (foldM _ s1 cs) as [s2|] eqn:E2; [|discriminate]. cbn [bind] in H.
  assert (C0 : calm s s0) by apply (alloc_net_calm s name cls).
  assert (G0 : good s0) by apply (good_alloc_net name cls G).
  destruct (register_calm E1) as (C1 & O1 & L1).
  assert (C2 : (calm s0 s2 /\ st_objs s2 = st_objs s0) /\ length (st_sh s2) = length (st_sh s0)).
  { apply (@foldM_inv _ _ _ (fun q => (calm s0 q /\ st_objs q = st_objs s0) /\ length (st_sh q) = length (st_sh s0)) _ _ _ E2); [auto|].
    intros e a a' _ ((Ha1 & Ha2) & Ha3) Hs. destruct (add_comp_calm Hs) as (B1 & B2 & B3). split; [split; [eapply calm_trans; eassumption|congruence]|congruence]. }
  destruct C2 as ((C2 & O2) & L2).
  assert (El : nth_error (st_objs s2) (length (st_objs s)) = Some (ONet name cls [] None (length (st_sh s)))).
  { rewrite O2. cbn [s0 st_objs]. rewrite nth_error_app2 by lia. now rewrite Nat.sub_diag. }
  rewrite (proj2 (get_net_inv _ _ _ _ _ _ _) El) in H. cbn [bind] in H.
  match type of H with bind (ObjModel.refresh _ _ _ ?q _) _ = _ => set (s3 := q) in H end.
  destruct (refresh s3 (length (st_objs s))) as [s4|] eqn:E4; [|discriminate]. cbn [bind] in H. injection H as <- <-. split; [reflexivity|].
  assert (Ls0 : length (st_sh s0) = S (length (st_sh s))) by (cbn [s0 st_sh]; rewrite app_length; cbn; lia).
  exists s3. split; [|split; [|split; [|split; [|split; [|exact E4]]]]].
  - destruct (calm_trans C0 C2) as [F2 Gr2 St2]. constructor.
    + apply (@frame_new (length (st_objs s)) (length (st_sh s))); [lia|lia|]. eapply frame_trans; [apply frame_weak, F2|apply put_sh_frame_at].
    + intros i Hi Hm. unfold get_sh, s3, put_sh; cbn [st_sh]. rewrite nth_set_nth by lia. apply Gr2; assumption.
    + exact St2.
  - eapply good_same; [| |exact G0]; [exact O2|]. cbn [s3 put_sh st_sh]. now rewrite set_nth_length.
  - exact O2.
  - cbn [s3 put_sh st_sh]. rewrite set_nth_length. congruence.
  - unfold s3. rewrite get_sh_put by lia. cbn [sh_buf].
    destruct (fr_sh (ca_frame C2) (i := length (st_sh s)) ltac:(lia) ltac:(discriminate)) as [_ ->].
    unfold get_sh, s0; cbn [st_sh]. rewrite app_nth2 by lia. now rewrite Nat.sub_diag.
Qed.

Lemma new_net_ok s name cls cs conns s' l : good s -> new_net s name cls cs conns = Ok (s', l) ->
  calm s s' /\ good s' /\ l = length (st_objs s) /\ length (st_objs s') = S l
  /\ (exists n' c' cs' f', nth_error (st_objs s') l = Some (ONet n' c' cs' f' (length (st_sh s))))
  /\ ((forall k, fresh s k) -> forall k, fresh s' k).
Proof.
  intros G H. destruct (new_net_before G H) as (-> & s2 & C & G2 & O2 & L2 & B2 & R). set (i := length (st_sh s)) in *. set (l := length (st_objs s)) in *.
  assert (El : nth_error (st_objs s2) l = Some (ONet name cls [] None i)) by (rewrite O2, nth_error_app2 by (unfold l; lia); unfold l; now rewrite Nat.sub_diag).
  destruct (refresh_frame R) as (o & j & Eo & Hs & F & Ss & Lo & Lsh). rewrite El in Eo. injection Eo as <-. cbn in Hs. injection Hs as <-.
  assert (Lo2 : length (st_objs s2) = S l) by (rewrite O2, app_length; cbn; unfold l; lia).
  split.
  { destruct C as [F2 Gr2 St2]. split.
    - apply (@frame_new l i); [unfold l; lia|unfold i; lia|]. eapply frame_trans; [apply frame_weak, F2|exact F].
    - eapply mods_grow_trans; [exact F2|exact Gr2|]. exact (refresh_grow R).
    - congruence. }
  split; [eapply refresh_good; eassumption|]. split; [reflexivity|]. split; [congruence|].
  split. { destruct (fr_obj F El) as (o' & Ho' & Hs' & _). destruct o' as [|n' c' cs' f' sh']; [discriminate|]. cbn in Hs'. injection Hs' as ->. eauto 6. }
  intros Fr. assert (Old : forall k o, k <> l -> nth_error (st_objs s2) k = Some o -> nth_error (st_objs s) k = Some o).
  { intros k o Hk Ho. pose proof (nth_in_range Ho). rewrite O2, nth_error_app1 in Ho by (unfold l in *; lia). exact Ho. }
  assert (Wo : forall k o q, nth_error (st_objs s) k = Some o -> sh_of o = Some q -> q < i) by (intros; eapply (proj1 G); eassumption).
  eapply refresh_fresh; [exact G2|exact El| | | | | |exact R].
  - intros k n c cs1 f sh Hk q t o Hin Ho. destruct (Nat.eq_dec k l) as [->|Hne].
    + rewrite El in Hk. injection Hk as <- <- <- <- <-. contradiction.
    + pose proof (Old _ _ Hne Hk) as Hk'. destruct (proj1 (proj2 G) _ _ _ _ _ _ Hk' q t Hin) as (o1 & Ho1 & _).
      pose proof (nth_in_range Ho1). rewrite O2, nth_error_app1 in Ho by assumption. intros Q. specialize (Wo _ _ _ Ho Q). lia.
  - intros k o Ho A Q. injection Q as ->. rewrite El in Ho. injection Ho as <-. apply A. reflexivity.
  - intros k o Ho Hso. destruct (Nat.eq_dec k l) as [|Hne]; [assumption|]. specialize (Wo _ _ _ (Old _ _ Hne Ho) Hso). lia.
  - intros k Hk. destruct (Nat.lt_ge_cases k l) as [Hlt|Hge]; [|apply fresh_out; lia]. eapply fresh_calm; [exact G|exact C|exact Hlt|apply Fr].
  - intros Q. contradiction.
Qed.

Definition agree (s : state) : Prop := forall k, fresh s k.
Lemma agree_calm s s' : good s -> calm s s' -> length (st_objs s') = length (st_objs s) -> agree s -> agree s'.
Proof.
  intros G C L A k. destruct (Nat.lt_ge_cases k (length (st_objs s))) as [Hk|Hk]; [eapply fresh_calm; eauto|apply fresh_out; lia].
Qed.
Lemma agree_alloc s o : good s -> agree s -> fresh (fst (alloc s o)) (length (st_objs s)) -> agree (fst (alloc s o)).
Proof.
  intros G A Hn k. destruct (Nat.lt_trichotomy k (length (st_objs s))) as [Hk|[->|Hk]]; [eapply fresh_calm; [exact G|apply alloc_calm|exact Hk|apply A]|exact Hn|].
  apply fresh_out. cbn [alloc fst st_objs]. rewrite app_length. cbn. lia.
Qed.
Lemma alloc_at (s : state) o : nth_error (st_objs (fst (alloc s o))) (length (st_objs s)) = Some o.
Proof. cbn [alloc fst st_objs]. rewrite nth_error_app2 by lia. now rewrite Nat.sub_diag. Qed.
Lemma fresh_comp s l n b : nth_error (st_objs s) l = Some (OComp n b) -> fresh s l.
Proof. intros E n1 c1 cs1 f1 sh1 b1 E1. congruence. Qed.
Lemma agree_same s s' : good s -> calm s s' -> agree s -> length (st_objs s') = length (st_objs s) -> agree s'.
Proof. intros. eapply agree_calm; eauto. Qed.

Lemma new_comp_agree s name b s' l : good s -> agree s -> new_comp s name b = Ok (s', l) -> agree s'.
Proof.
  intros G A H. unfold ObjModel.new_comp in H. cbn [alloc] in H. destruct (register _ name _) as [s1|] eqn:E; [|discriminate]. cbn [bind] in H.
  destruct (check_buf false b) as [b1|] eqn:Ec; [|discriminate]. cbn [bind] in H. injection H as <- <-. pose proof (check_same Ec); subst b1.
  destruct (register_calm E) as (C & O & Ls). apply (@agree_calm (fst (alloc s (OComp name b))) s1); [apply (good_alloc (o := OComp name b) G); exact Ec|exact C|now rewrite O|].
  apply agree_alloc; [exact G|exact A|]. eapply fresh_comp, alloc_at.
Qed.

Lemma copy_terms_ok ts : forall s d s' d', good s -> copy_terms s ts d = Ok (s', d') -> calm s s' /\ good s' /\ (agree s -> agree s')
  /\ length (st_sh s') = length (st_sh s) /\ exists more, st_objs s' = st_objs s ++ more.
Proof.
  induction ts as [|t r IH]; intros s d s' d' G H; cbn [copy_terms] in H.
  { injection H as <- <-. split; [apply calm_refl|]. split; [exact G|]. split; [auto|]. split; [auto|]. exists []. now rewrite app_nil_r. }
  destruct (get s t) as [o|] eqn:Eo; [|discriminate]. cbn [bind] in H. destruct o as [[n|] b|]; try discriminate. cbn [alloc] in H.
  assert (Ec : check_buf false b = Ok b) by (apply get_inv in Eo; eapply (proj2 (proj2 G)), Eo).
  assert (G1 : good (fst (alloc s (OComp (Some n) b)))) by (apply (good_alloc (o := OComp (Some n) b) G); exact Ec).
  destruct (IH _ _ _ _ G1 H) as (C & G' & A' & L & more & O). split; [eapply calm_trans; [apply alloc_calm|exact C]|]. split; [exact G'|]. split.
  - intros A. apply A'; apply agree_alloc; [exact G|exact A|]. eapply fresh_comp, alloc_at.
  - split; [exact L|]. exists (OComp (Some n) b :: more). rewrite O. cbn [alloc fst st_objs]. now rewrite <- app_assoc.
Qed.

(** A copy of a network with the same components and shared part. *)
Lemma fresh_copy s l k n c cs f sh n' c' f' : nth_error (st_objs s) l = Some (ONet n c cs f sh) -> nth_error (st_objs s) k = Some (ONet n' c' cs f' sh) ->
  fresh s l -> fresh s k.
Proof.
  intros E E' Fr n1 c1 cs1 f1 sh1 b1 E1 Eb. rewrite E' in E1. injection E1 as <- <- <- <- <-.
  destruct (Fr _ _ _ _ _ _ E Eb) as (A1 & A2 & A3 & A4 & A5 & A6). repeat split; auto. destruct limit as [|m]; [discriminate A5|].
  cbn [ObjModel.current] in A5 |- *. rewrite (proj2 (get_inv s l _) E) in A5. rewrite (proj2 (get_inv s k _) E'). exact A5.
Qed.

Lemma terminate_ok s l arg ts s' nw : good s -> terminate s l arg ts = Ok (s', nw) ->
  calm s s' /\ good s' /\ (agree s -> agree s').
Proof.
  intros G H. unfold ObjModel.terminate in H. destruct (get_net s l) as [[[[[own cls] cs] f] sh]|] eqn:E; [|discriminate]. cbn [bind] in H. apply get_net_inv in E.
  destruct f as [n|]; [|discriminate]. cbn [of_option bind] in H. destruct (n =? 0); [discriminate|].
  destruct (copy_terms s ts []) as [[s1 d]|] eqn:E1; [|discriminate]. cbn [bind] in H. destruct (copy_terms_ok G E1) as (C1 & G1 & A1 & L1 & more & O1).
  destruct (alloc s1 _) as [s2 c] eqn:E2. set (o := ONet (Some (copied_name own cls)) cls cs (Some n) sh) in *. pose proof (f_equal fst E2) as E2'. cbn [fst] in E2'.
  assert (El : nth_error (st_objs s1) l = Some (ONet own cls cs (Some n) sh)) by (rewrite O1, nth_error_app1; [exact E|eapply nth_in_range, E]).
  assert (G2 : good s2).
  { rewrite <- E2'. apply (good_alloc (o := o) G1). split; [eapply (proj1 G1); [exact El|reflexivity]|]. intros k t Hin. eapply (proj1 (proj2 G1)); eassumption. }
  assert (C2 : calm s1 s2) by (rewrite <- E2'; apply alloc_calm).
  assert (A2 : agree s1 -> agree s2).
  { intros A. rewrite <- E2'. apply agree_alloc; [exact G1|exact A|]. rewrite E2'.
    assert (El2 : nth_error (st_objs s2) l = Some (ONet own cls cs (Some n) sh)) by (rewrite <- E2'; cbn [alloc fst st_objs]; rewrite nth_error_app1; [exact El|eapply nth_in_range, El]).
    eapply fresh_copy; [exact El2|rewrite <- E2'; apply alloc_at|]. eapply fresh_calm; [exact G1|exact C2|eapply nth_in_range, El|apply A]. }
  destruct (new_net s2 _ _ _ _) as [[s3 nw1]|] eqn:E3; [|discriminate]. cbn [bind] in H. destruct (new_net_ok G2 E3) as (C3 & G3 & _ & _ & _ & A3).
  destruct (add_comp s3 nw1 "base" l) as [s4|] eqn:E4; [|discriminate]. cbn [bind] in H. injection H as <- <-. destruct (add_comp_calm E4) as (C4 & O4 & L4).
  split; [eapply calm_trans; [exact C1|]; eapply calm_trans; [exact C2|]; eapply calm_trans; eassumption|].
  split; [exact (@good_same s3 s4 O4 L4 G3)|]. intros A. eapply agree_calm; [exact G3|exact C4|now rewrite O4|]. exact (A3 (A2 (A1 A))).
Qed.

Lemma new_terms_ok s tcls t n s' ts : good s -> new_terms reserved s tcls t n = Ok (s', ts) -> calm s s' /\ good s' /\ (agree s -> agree s').
Proof.
  intros G H. unfold new_terms in H.
  apply (@foldM_inv _ _ _ (fun a => calm s (fst a) /\ good (fst a) /\ (agree s -> agree (fst a))) _ _ _ H); [split; [apply calm_refl|auto]|].
  intros e [a1 l1] [a2 l2] _ (Ha1 & Ha2 & Ha3) Hs. cbn [fst snd] in *. destruct (new_comp a1 (Some e) t) as [[b1 c1]|] eqn:E; [|discriminate]. cbn [bind] in Hs. injection Hs as <- <-.
  destruct (new_comp_ok Ha2 E) as (C & G' & _). split; [eapply calm_trans; eassumption|]. split; [exact G'|]. intros A. eapply new_comp_agree; [exact Ha2|auto|exact E].
Qed.

Lemma link_net_ok s l ports s' : good s -> link_net s l ports = Ok s' -> exists o i, nth_error (st_objs s) l = Some o /\ sh_of o = Some i
  /\ frame (Some l) (Some i) s s' /\ good s' /\ st_stack s' = st_stack s.
Proof.
  intros G H. unfold ObjModel.link_net in H. destruct (get_net s l) as [[[[[n c] cs] f] sh]|] eqn:E; [|discriminate]. cbn [bind] in H. apply get_net_inv in E.
  destruct (link_strings ports) as [conns [e|]]; [discriminate|]. exists (ONet n c cs f sh), sh. split; [exact E|]. split; [reflexivity|].
  match type of H with ObjModel.refresh _ _ _ ?q _ = _ => set (s1 := q) in H end.
  assert (G1 : good s1) by (apply (@good_same s s1); [reflexivity|cbn [s1 put_sh st_sh]; now rewrite set_nth_length|exact G]).
  destruct (refresh_frame H) as (o & i & Eo & Hs & F & Ss & _). cbn [s1 put_sh st_objs] in Eo. rewrite E in Eo. injection Eo as <-. cbn in Hs. injection Hs as <-.
  split; [eapply frame_trans; [apply put_sh_frame_at|exact F]|]. split; [eapply refresh_good; eassumption|exact Ss].
Qed.

(** Network [l] is a component of no network, and no other network has its shared part. *)
Definition loose (s : state) (l : nat) : Prop := forall o sh, nth_error (st_objs s) l = Some o -> sh_of o = Some sh ->
  unused (Some sh) s /\ forall k o', nth_error (st_objs s) k = Some o' -> sh_of o' = Some sh -> k = l.
Lemma link_net_agree s l ports s' : good s -> agree s -> loose s l -> link_net s l ports = Ok s' -> agree s'.
Proof.
  intros G A Lo H. unfold ObjModel.link_net in H. destruct (get_net s l) as [[[[[n c] cs] f] sh]|] eqn:E; [|discriminate]. cbn [bind] in H. apply get_net_inv in E.
  destruct (link_strings ports) as [conns [e|]]; [discriminate|]. destruct (Lo _ _ E eq_refl) as (U & P).
  match type of H with ObjModel.refresh _ _ _ ?q _ = _ => set (s1 := q) in H end.
  assert (G1 : good s1) by (apply (@good_same s s1); [reflexivity|cbn [s1 put_sh st_sh]; now rewrite set_nth_length|exact G]).
  assert (So : sole (Some l) (Some sh) s) by (intros k o Ho Ap Q; injection Q as ->; rewrite E in Ho; injection Ho as <-; apply Ap; reflexivity).
  assert (Lsh : sh < length (st_sh s)) by (eapply (proj1 G); [exact E|reflexivity]).
  intros k. refine (@refresh_fresh s1 l s' n c cs f sh G1 E _ _ P _ _ H k).
  - exact U.
  - exact So.
  - intros q Hq. destruct (nth_error (st_objs s) q) as [o|] eqn:Eq; [|apply fresh_out; apply nth_error_None in Eq; exact Eq].
    assert (Gr : mods_grow s s1) by (apply put_sh_grow; auto).
    assert (Ap : apart (Some sh) o) by (intros Q; apply Hq; eapply P; eassumption).
    exact (@fresh_frame (Some l) (Some sh) s s1 (proj1 G) (proj1 (proj2 G)) (put_sh_frame_at _ _ _ _) U So Gr q o Eq Ap (A q)).
  - unfold s1. rewrite get_sh_put by exact Lsh. cbn [sh_buf sh_conns sh_mods]. intros Hb. destruct (sh_buf (get_sh s sh)) as [b|] eqn:Eb; [|congruence].
    destruct (A l _ _ _ _ _ _ E Eb) as (B1 & B2 & _). split; [|exact B2]. destruct (sh_conns (get_sh s sh)); [contradiction|discriminate].
Qed.

(** The network whose [link] a statement calls. *)
Definition target (s : state) (p : stmt X D) : option nat :=
  match p with SLink net _ => Some net | SCurLink _ => hd_error (st_stack s) | _ => None end.
Definition target_sh (s : state) (p : stmt X D) : option nat :=
  match target s p with Some l => match nth_error (st_objs s) l with Some o => sh_of o | None => None end | None => None end.
Definition stack_after (s : state) (p : stmt X D) : list nat :=
  match p with SEnter net => net :: st_stack s | SExit => tl (st_stack s) | _ => st_stack s end.

Definition with_stack (s : state) (st : list nat) : state := {| st_objs := st_objs s; st_sh := st_sh s; st_stack := st |}.
Lemma with_stack_frame s st t x : frame t x s (with_stack s st).
Proof. constructor; auto. intros l o H. exists o. auto. Qed.
Lemma with_stack_agree s st : good s -> agree s -> agree (with_stack s st).
Proof.
  intros (W & N & _) A k. destruct (nth_error (st_objs s) k) as [o|] eqn:E; [|apply fresh_out; apply nth_error_None in E; exact E].
  refine (@fresh_frame None None s (with_stack s st) W N (with_stack_frame _ _ _ _) _ _ _ k o E I (A k)).
  - intros l n c cs f sh _ q t o' _ _. exact I.
  - intros l o' _ _ Q. discriminate Q.
  - intros i _ H. exact H.
Qed.

Lemma step_ok s p s' : good s -> step s p = Ok s' ->
  good s' /\ frame (target s p) (target_sh s p) s s' /\ st_stack s' = stack_after s p
  /\ (agree s -> (forall l, target s p = Some l -> loose s l) -> agree s').
Proof.
  intros G H. destruct p as [name b|name cls cs conns|net key c|net ports|ports|net arg ts|net arg tcls t|net|]; cbn [ObjModel.step target target_sh stack_after] in *.
  - destruct (new_comp s name b) as [[s1 l]|] eqn:E; [|discriminate]. cbn [bind] in H. injection H as <-. destruct (new_comp_ok G E) as ([F _ S] & G' & _).
    split; [exact G'|]. split; [exact F|]. split; [exact S|]. intros A _. exact (new_comp_agree G A E).
  - destruct (new_net s name cls cs conns) as [[s1 l]|] eqn:E; [|discriminate]. cbn [bind] in H. injection H as <-. destruct (new_net_ok G E) as ([F _ S] & G' & _ & _ & _ & A').
    split; [exact G'|]. split; [exact F|]. split; [exact S|]. intros A _. exact (A' A).
  - destruct (add_comp_calm H) as (C & O & L). split; [exact (@good_same s s' O L G)|]. pose proof C as [F _ S]. split; [exact F|]. split; [exact S|].
    intros A _. eapply agree_calm; [exact G|exact C|now rewrite O|exact A].
  - destruct (link_net_ok G H) as (o & i & E & Hs & F & G' & S). unfold target_sh. cbn [target]. rewrite E, Hs. split; [exact G'|]. split; [exact F|]. split; [exact S|].
    intros A Lo. eapply link_net_agree; [exact G|exact A|apply Lo; reflexivity|exact H].
  - unfold target_sh. cbn [target]. destruct (st_stack s) as [|nw r] eqn:Es; [discriminate|]. cbn [hd_error].
    destruct (link_net_ok G H) as (o & i & E & Hs & F & G' & S). rewrite E, Hs. split; [exact G'|]. split; [exact F|]. split; [congruence|].
    intros A Lo. eapply link_net_agree; [exact G|exact A|apply Lo; reflexivity|exact H].
  - destruct (terminate s net arg ts) as [[s1 l]|] eqn:E; [|discriminate]. cbn [bind] in H. injection H as <-. destruct (terminate_ok G E) as ([F _ S] & G' & A').
    split; [exact G'|]. split; [exact F|]. split; [exact S|]. intros A _. exact (A' A).
  - destruct (get_net s net) as [[[[[n0 c0] cs0] f0] sh0]|] eqn:E0; [|discriminate]. cbn [bind] in H. destruct f0 as [n|]; [|discriminate]. cbn [of_option bind] in H.
    destruct (n =? 0); [discriminate|]. destruct (new_terms reserved s tcls t n) as [[s1 ts]|] eqn:E1; [|discriminate]. cbn [bind] in H.
    destruct (new_terms_ok G E1) as (C1 & G1 & A1).
    destruct (terminate s1 net arg ts) as [[s2 l]|] eqn:E2; [|discriminate]. cbn [bind] in H. injection H as <-. destruct (terminate_ok G1 E2) as (C2 & G' & A').
    destruct (calm_trans C1 C2) as [F _ S]. split; [exact G'|]. split; [exact F|]. split; [exact S|]. intros A _. exact (A' (A1 A)).
  - destruct (get_net s net) as [[[[[n0 c0] cs0] f0] sh0]|] eqn:E0; [|discriminate]. cbn [bind] in H. injection H as <-.
    split; [exact G|]. split; [apply (with_stack_frame s)|]. split; [reflexivity|]. intros A _. apply (@with_stack_agree s _ G A).
  - destruct (st_stack s) as [|nw r] eqn:Es; [discriminate|]. injection H as <-. split; [exact G|]. split; [apply (with_stack_frame s)|]. split; [reflexivity|]. intros A _. apply (@with_stack_agree s _ G A).
Qed.

Lemma good_start : good (start X D).
Proof. repeat split; intros l; intros; try (destruct l; discriminate). Qed.
Lemma agree_start : agree (start X D).
Proof. intros k n c cs f sh b E. destruct k; discriminate. Qed.
Lemma run_good ps : forall s s', good s -> run s ps = Ok s' -> good s'.
Proof.
  induction ps as [|p r IH]; intros s s' G H; cbn in H; [congruence|]. destruct (step s p) as [s1|] eqn:E; [|discriminate]. cbn [bind] in H.
  eapply IH; [|exact H]. eapply step_ok; eassumption.
Qed.
(** No statement of the program links a network that is in use. *)
Fixpoint careful (s : state) (ps : list (stmt X D)) : Prop :=
  match ps with
  | [] => True
  | p :: r => (forall l, target s p = Some l -> loose s l) /\ forall s', step s p = Ok s' -> careful s' r
  end.
Lemma run_agree ps : forall s s', good s -> agree s -> careful s ps -> run s ps = Ok s' -> agree s'.
Proof.
  induction ps as [|p r IH]; intros s s' G A C H; cbn in H; [injection H as <-; exact A|]. destruct (step s p) as [s1|] eqn:E; [|discriminate]. cbn [bind] in H.
  destruct C as [C1 C2]. destruct (step_ok G E) as (G1 & _ & _ & A1). eapply IH; [exact G1|apply A1; assumption|apply C2, E|exact H].
Qed.
End Obj.
