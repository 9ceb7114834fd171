(** C90: components bear the names under which they are used. *)
From Verif Require Import Base PyStr NetModel NetSpec NetProofs NetBuild PropNet ObjModel ObjSpec ObjProofs ObjTree ObjNames ObjKeys PropObj.
Set Implicit Arguments.
Unset Strict Implicit.
Local Open Scope string_scope.
Local Open Scope list_scope.
Local Open Scope nat_scope.

(** ** One network, components not shared *)
Section Value.
Variables (X D : Type) (x0 : X) (d0 : D).
Notation nstate := (nstate X D).
(** Whatever is done to a network, the components it uses are called as their attributes. *)
Definition names_right (s : nstate) : Prop := forall n c, In n (ns_names s) -> In (n, c) (ns_mods s) -> o_name c = Some n.

Lemma In_dict_set V (key : string) (v : V) d k w : In (k, w) (dict_set String.eqb key v d) -> In (k, w) d \/ (k = key /\ w = v).
Proof. apply dict_set_In. Qed.
Lemma name_mods_right names (mods : list (string * cobj X D)) n c : In n names -> In (n, c) (name_mods names mods) -> o_name c = Some n.
Proof.
  intros Hn Hin. unfold name_mods in Hin. apply in_map_iff in Hin as ([m c'] & E & _). cbn [fst snd] in E. destruct (existsb (String.eqb m) names) eqn:Ex; injection E as -> <-; [reflexivity|].
  exfalso. assert (existsb (String.eqb n) names = true); [|congruence]. apply existsb_exists. exists n. split; [exact Hn|apply String.eqb_refl].
Qed.
Lemma rebuild_right (s : nstate) : names_right s -> names_right (fst (rebuild x0 d0 s)).
Proof.
  intros H. unfold rebuild. destruct (ns_conns s) as [|c1 cr]; [exact H|]. destruct (ns_mods s) as [|m mr] eqn:Em; [exact H|]. rewrite <- Em.
  destruct (set_buffers _ _ _ _) as [[[cs b]|]|e]; cbn [fst]; [|exact H|]; intros n c Hn Hin; cbn [ns_names ns_mods] in *; eapply name_mods_right; eassumption.
Qed.
Theorem C90_value os n c : let s := nrun x0 d0 (ns_empty X D) os in In n (ns_names s) -> In (n, c) (ns_mods s) -> o_name c = Some n.
Proof.
  cbn zeta. revert n c. change (names_right (nrun x0 d0 (ns_empty X D) os)). unfold nrun.
  assert (H0 : names_right (ns_empty X D)) by (intros n c []). revert H0. generalize (ns_empty X D). induction os as [|o os IH]; intros s H; [exact H|]. cbn [fold_left]. apply IH.
  destruct o as [name c|ports]; cbn [nstep].
  - unfold add_component. destruct (existsb (String.eqb name) (ns_names s)) eqn:Ex; [exact H|].
    assert (Q : names_right {| ns_mods := dict_set String.eqb name c (ns_mods s); ns_conns := ns_conns s; ns_names := ns_names s; ns_buf := ns_buf s |}).
    { intros m c' Hm Hin. cbn [ns_names ns_mods] in *. destruct (In_dict_set Hin) as [Hin'|[-> ->]]; [exact (H m c' Hm Hin')|].
      exfalso. assert (existsb (String.eqb name) (ns_names s) = true); [|congruence]. apply existsb_exists. exists name. split; [exact Hm|apply String.eqb_refl]. }
    destruct (o_name c) as [m|]; [|exact Q]. destruct (String.eqb m name); [exact Q|exact H].
  - unfold link. destruct (link_strings ports) as [cs [e|]]; cbn [fst]; [|apply rebuild_right]; exact H.
Qed.
End Value.

(** ** Programs with shared objects *)
Section Program.
Variables (X D : Type) (x0 : X) (d0 : D).
Variable reserved : string -> bool.
Variable limit : nat.
Notation state := (state X D).
Notation run := (@run X D x0 d0 reserved limit).
Notation step := (@step X D x0 d0 reserved limit).
Notation add_comp := (@add_comp X D reserved).

(** Object [t] is the component [k] of network [l]. *)
Definition component_of (s : state) (l : nat) (k : string) (t : nat) : Prop := exists cs conns, circuit_of s l cs conns /\ In (k, t) cs.
(** No object is a component under two names, now ... *)
Definition one_name (s : state) : Prop := forall l k l' k' t, component_of s l k t -> component_of s l' k' t -> k = k'.
(** ... and while the program runs. *)
Definition unambiguous (ps : list (stmt X D)) : Prop := forall pre post s, ps = pre ++ post -> run (start X D) pre = Ok s -> one_name s.

Lemma component_uses s l k t : good s -> component_of s l k t <-> uses s l k t.
Proof.
  intros G. split.
  - intros (cs & conns & (n & c & f & i & x & O & _) & Hin). repeat eexists; eassumption.
  - intros (n & c & cs & f & i & O & Hin). exists cs, (sh_conns (get_sh s i)). split; [|exact Hin]. exists n, c, f, i, (get_sh s i). split; [exact O|]. split; [|reflexivity].
    apply nth_error_nth'. eapply (proj1 G); [exact O|reflexivity].
Qed.
Theorem C90_program ps s l k t : unambiguous ps -> run (start X D) ps = Ok s -> component_of s l k t -> exists o, object s t o /\ name_of o = Some k.
Proof.
  intros U Hr Hc. assert (K : good s /\ keyed s).
  { clear l k t Hc. revert s U Hr. induction ps as [|p r IH] using rev_ind; intros s U Hr; [injection Hr as <-; split; [apply good_start|apply keyed_start]|].
    rewrite run_app in Hr. destruct (run (start X D) r) as [s1|] eqn:E; [|discriminate]. cbn [bind] in Hr. rewrite run_cons in Hr.
    destruct (step s1 p) as [s2|] eqn:E2; [|discriminate]. cbn [bind] in Hr. injection Hr as <-.
    destruct (IH s1) as (G1 & K1); [|reflexivity|].
    - intros pre post s0 -> H0. apply (U pre (post ++ [p]) s0); [now rewrite app_assoc|exact H0].
    - destruct (step_ok G1 E2) as (G2 & _). split; [exact G2|]. eapply step_keyed; [exact G1|exact K1|exact E2|].
      assert (O2 : one_name s2). { apply (U (r ++ [p]) [] s2); [now rewrite app_nil_r|]. rewrite run_app, E. cbn [bind]. rewrite run_cons, E2. reflexivity. }
      intros l k l' k' t H1 H2. apply (O2 l k l' k' t); apply (component_uses _ _ _ G2); assumption. }
  destruct K as [G K]. apply (component_uses _ _ _ G) in Hc. exact (K _ _ _ Hc).
Qed.
(** A component in use cannot be assigned to an attribute of another name. *)
Theorem C90_kept ps s l k t net key s' : unambiguous ps -> run (start X D) ps = Ok s -> component_of s l k t -> add_comp s net key t = Ok s' -> key = k.
Proof.
  intros U Hr Hc Ha. destruct (C90_program U Hr Hc) as (o & Ho & No). apply add_comp_inv in Ha as (n & cl & cs & f & sh & o' & _ & Eo & [Q|Q] & _); unfold object in Ho; congruence.
Qed.
End Program.

(** C90 is false when an object is assigned to two attributes, as in the library's own tests
    (tests/fixtures.py:91-96 [nw.wg1 = nw.wg2 = Waveguide()]). *)
Definition shared_prog : list (stmt unit unit) :=
  [ SNet None "network" [] []; SComp None (lf 2); SAdd 0 "wg2" 1; SAdd 0 "wg1" 1;
    SLink 0 [PInt 1; PStr "0:wg1:1"; PStr "0:wg2:1"; PInt 0] ].
Lemma component_ok (s : ustate) l k t :
  match nth_error (st_objs s) l with
  | Some (ONet _ _ cs _ i) => existsb (fun e => String.eqb k (fst e) && (t =? snd e)) cs && match nth_error (st_sh s) i with Some _ => true | None => false end
  | _ => false end = true -> component_of s l k t.
Proof.
  intros H. destruct (nth_error (st_objs s) l) as [[|n c cs f i]|] eqn:E; try discriminate. apply andb_true_iff in H as [H1 H2]. destruct (nth_error (st_sh s) i) as [x|] eqn:Ex; [|discriminate].
  apply existsb_exists in H1 as ([k' t'] & Hin & Q). apply andb_true_iff in Q as [Q1 Q2]. cbn [fst snd] in *. apply String.eqb_eq in Q1. apply Nat.eqb_eq in Q2. subst.
  exists cs, (sh_conns x). split; [|exact Hin]. exists n, c, f, i, x. auto.
Qed.
Theorem C90_refuted : exists s o, urun (start unit unit) shared_prog = Ok s /\ component_of s 0 "wg1" 1 /\ object s 1 o /\ name_of o = Some "wg2".
Proof.
  exists (final shared_prog), (OComp (Some "wg2") (lf 2)). split; [apply final_ok; vm_compute; reflexivity|].
  split; [apply component_ok; vm_compute; reflexivity|]. split; [vm_compute; reflexivity|reflexivity].
Qed.

(** A program whose names are not ambiguous. *)
Definition keys_used (s : ustate) : list (string * nat) := flat_map (fun o => match o with ONet _ _ cs _ _ => cs | OComp _ _ => [] end) (st_objs s).
Definition one_nameb (s : ustate) : bool := forallb (fun e => forallb (fun e' => negb (snd e =? snd e') || String.eqb (fst e) (fst e')) (keys_used s)) (keys_used s).
Lemma one_nameb_ok s : one_nameb s = true -> one_name s.
Proof.
  unfold one_nameb. intros H l k l' k' t H1 H2. assert (I : forall l k, component_of s l k t -> In (k, t) (keys_used s)).
  { intros l0 q (cs & conns & (n & c & f & i & x & O & _) & Hin). apply in_flat_map. exists (ONet n c cs f i). split; [eapply nth_error_In, O|exact Hin]. }
  rewrite forallb_forall in H. specialize (H _ (I _ _ H1)). rewrite forallb_forall in H. specialize (H _ (I _ _ H2)). cbn [fst snd] in H. rewrite Nat.eqb_refl in H. cbn in H. now apply String.eqb_eq.
Qed.
Fixpoint unambb (s : ustate) (ps : list (stmt unit unit)) : bool :=
  one_nameb s && match ps with [] => true | p :: r => match @ObjModel.step unit unit tt tt (fun _ => false) 20 s p with Ok s' => unambb s' r | Err _ => true end end.
Lemma unambb_ok ps : unambb (start unit unit) ps = true -> unambiguous tt tt (fun _ => false) 20 ps.
Proof.
  intros H pre post s -> Hr. apply one_nameb_ok. revert H Hr. generalize (start unit unit). induction pre as [|p pre IH]; intros s0 H Hr.
  - injection Hr as <-. destruct post; cbn [app unambb] in H; apply andb_true_iff in H; apply H.
  - cbn [app unambb] in H. apply andb_true_iff in H as [_ H]. rewrite run_cons in Hr. destruct (ObjModel.step _ _ _ _ s0 p) as [s1|]; [|discriminate]. cbn [bind] in Hr. eapply IH; eassumption.
Qed.
Example C90_ex : unambiguous tt tt (fun _ => false) 20 late_prog /\ is_ok (urun (start unit unit) late_prog) = true /\ component_of (final late_prog) 3 "pair" 0.
Proof. split; [apply unambb_ok; vm_compute; reflexivity|]. split; [vm_compute; reflexivity|]. apply component_ok; vm_compute; reflexivity. Qed.
(** A second link that fails, after a good one. *)
Example C90_value_ex : let s := nrun tt tt (ns_empty unit unit)
    [OAdd "a" {| o_name := None; o_buf := lf 2 |}; OAdd "b" {| o_name := None; o_buf := lf 2 |}; @OLink _ _ [PStr "0:a:1"; PStr "0:b:1"]; @OLink _ _ [PStr "0:c:1"]] in
  map (fun m => (fst m, o_name (snd m))) (ns_mods s) = [("a", Some "a"); ("b", Some "b")] /\ ns_names s = ["a"; "b"].
Proof. cbn zeta. split; vm_compute; reflexivity. Qed.

(** ** C85 again: external ports *)
(** [pair] has four free ports and is the only part of [mid].  After [mid] is linked, two ports of [pair] are
    connected inside.  A network [top] built now counts the ports of [mid] as they were: its ports "3" and "2"
    are accepted although [mid] has only two free ports left, and become the two ports that are connected. *)
Definition mid_prog : list (stmt unit unit) :=
  [ SNet None "network" [] []; SComp None (lf 2); SComp None (lf 2); SAdd 0 "a" 1; SAdd 0 "b" 2;
    SLink 0 [PInt 0; PStr "0:a:1"; PInt 1]; SLink 0 [PInt 2; PStr "0:b:1"; PInt 3];
    SNet None "network" [] []; SAdd 3 "pair" 0; SLink 3 [PInt 0; PStr "0:pair:1"; PInt 1];
    SLink 0 [PStr "a:1"; PStr "0:b"];
    SNet None "network" [] []; SComp None (lf 2); SAdd 4 "mid" 3; SAdd 4 "wg" 5;
    SLink 4 [PInt 0; PStr "3:mid:2"; PInt 1]; SLink 4 [PInt 2; PStr "0:wg:1"; PInt 3] ].
Definition mid_late : comp unit unit := Net [("pair", pair_late)] ["pair:0:0"; "pair:1:1"].
Definition top_mid : comp unit unit := Net [("mid", mid_late); ("wg", wg2)] ["mid:3:0"; "mid:2:1"; "wg:0:2"; "wg:1:3"].
Theorem C85_ports_refuted : exists s b t e, urun (start unit unit) mid_prog = Ok s /\ stored s 4 = Ok b /\ unfolds s 4 t /\ ucompile t = Err e /\ b_order b = [2; 1; 4; 5; 0; 3].
Proof.
  exists (final mid_prog). destruct (stored (final mid_prog) 4) as [b|] eqn:Eb; [|vm_compute in Eb; discriminate]. exists b, top_mid, IndexError.
  split; [apply final_ok; vm_compute; reflexivity|]. split; [reflexivity|]. split; [|split; [vm_compute; reflexivity|]].
  - eapply un_net; [apply circuit_ok; vm_compute; reflexivity|]. constructor; [|constructor; [eapply unfolds_leaf2; vm_compute; reflexivity|constructor]].
    eapply un_net; [apply circuit_ok; vm_compute; reflexivity|]. constructor; [|constructor].
    eapply un_net; [apply circuit_ok; vm_compute; reflexivity|]. constructor; [eapply unfolds_leaf2; vm_compute; reflexivity|]. constructor; [|constructor]. eapply unfolds_leaf2; vm_compute; reflexivity.
  - assert (Q : match stored (final mid_prog) 4 with Ok b => b_order b | Err _ => [] end = [2; 1; 4; 5; 0; 3]) by (vm_compute; reflexivity). rewrite Eb in Q. exact Q.
Qed.

Print Assumptions C90_value.
Print Assumptions C90_program.
Print Assumptions C90_kept.
Print Assumptions C90_refuted.
Print Assumptions C85_ports_refuted.
