(** C114: drawings of networks. *)
From Coq Require Import QArith Reals Lra Lia Permutation.
From Verif Require Import Base PyStr NetModel NetSpec NetProofs WireProofs OrderProofs StateProofs PlotModel PropPlot DrawModel DrawSpec.
Set Implicit Arguments.
Unset Strict Implicit.
Local Open Scope R_scope.
Local Open Scope string_scope.
Local Open Scope list_scope.
Local Open Scope nat_scope.

(** ** Boxes *)
Lemma table_boxes n c : box_table n = Some c <-> In (n, c) boxes.
Proof.
  split.
  - unfold box_table. cbn [existsb]. rewrite !orb_false_r.
    repeat match goal with |- context [String.eqb n ?s] => destruct (String.eqb_spec n s); [subst n; cbn; intros [= <-]; auto 20|cbn [orb]] end.
    discriminate.
  - intros H. cbn [boxes In] in H. repeat (destruct H as [[= <- <-]|H]; [reflexivity|]). destruct H.
Qed.

Lemma boxes_fun n c c' : In (n, c) boxes -> In (n, c') boxes -> c = c'.
Proof. intros H H'. apply table_boxes in H, H'. congruence. Qed.

Lemma table_none n : box_table n = None <-> ~ In n (map fst boxes).
Proof.
  split.
  - intros H Hi. apply in_map_iff in Hi. destruct Hi as ([m c] & E & Hi). cbn in E. subst m. apply table_boxes in Hi. congruence.
  - intros H. destruct (box_table n) as [c|] eqn:E; [|reflexivity]. exfalso. apply H. apply table_boxes in E.
    apply in_map_iff. exists (n, c). auto.
Qed.

Definition colours (c : option string) : option (string * string) := match c with Some f => Some (f, f) | None => None end.

Fixpoint get_box_boxed (c : pycls) {struct c} : forall b, get_box c = Ok (colours b) <-> boxed c b.
Proof.
  destruct c as [n [p|]]; intros b; cbn [get_box].
  - destruct (box_table n) as [[f|]|] eqn:E.
    + pose proof (proj1 (table_boxes n (Some f)) E) as Hi. split.
      * intros H. destruct b as [g|]; cbn in H; [injection H as <- _|discriminate]. now constructor.
      * intros H. inversion H as [? ? ? Ho|? ? ? Hp Hq]; subst.
        -- rewrite <- (boxes_fun Hi Ho). reflexivity.
        -- exfalso. apply Hp. apply in_map_iff. eexists. split; [|exact Hi]. reflexivity.
    + pose proof (proj1 (table_boxes n None) E) as Hi. split.
      * intros H. destruct b as [g|]; cbn in H; [discriminate|]. now constructor.
      * intros H. inversion H as [? ? ? Ho|? ? ? Hp Hq]; subst.
        -- rewrite <- (boxes_fun Hi Ho). reflexivity.
        -- exfalso. apply Hp. apply in_map_iff. eexists. split; [|exact Hi]. reflexivity.
    + rewrite get_box_boxed. apply table_none in E. split.
      * now constructor.
      * intros H. inversion H as [? ? ? Ho|? ? ? Hp Hq]; subst; [|assumption]. exfalso. apply E. apply in_map_iff. eexists. split; [|exact Ho]. reflexivity.
  - destruct (box_table n) as [[f|]|] eqn:E.
    + pose proof (proj1 (table_boxes n (Some f)) E) as Hi. split.
      * intros H. destruct b as [g|]; cbn in H; [injection H as <- _|discriminate]. now constructor.
      * intros H. inversion H as [? ? ? Ho|? ? ? Hp Hq]; subst. rewrite <- (boxes_fun Hi Ho). reflexivity.
    + pose proof (proj1 (table_boxes n None) E) as Hi. split.
      * intros H. destruct b as [g|]; cbn in H; [discriminate|]. now constructor.
      * intros H. inversion H as [? ? ? Ho|? ? ? Hp Hq]; subst. rewrite <- (boxes_fun Hi Ho). reflexivity.
    + apply table_none in E. split; [discriminate|]. intros H. inversion H as [? ? ? Ho|? ? ? Hp Hq]; subst.
      exfalso. apply E. apply in_map_iff. eexists. split; [|exact Ho]. reflexivity.
Qed.

Lemma get_box_ok c : descends c -> exists b, get_box c = Ok (colours b).
Proof.
  induction 1 as [|n b H (c & IH)]; [exists (Some "C1"); reflexivity|].
  cbn [get_box]. destruct (box_table n) as [[f|]|]; [exists (Some f)|exists None|exists c]; auto.
Qed.

(** ** Labels *)
(** The label of a component. *)
Definition labels (pos : string -> R * R) (c : string * pycls) (l : label) : Prop :=
  l_text l = fst c /\ l_at l = pos (fst c) /\ exists b, boxed (snd c) b /\ l_box l = colours b.

Lemma draw_nodes_labels pos cs r : Forall (fun c => descends (snd c)) cs ->
  exists ls, draw_nodes (map fst cs ++ r) (map snd cs) pos = Ok ls /\ Forall2 (labels pos) cs ls.
Proof.
  intros H. induction H as [|[n c] cs Hc H (ls & IH & Hl)]; [exists []; destruct r; split; constructor|].
  unfold draw_nodes in *. cbn [map app combine mapM fst snd] in *. destruct (get_box_ok Hc) as (b & Eb). rewrite Eb. cbn [bind].
  rewrite IH. cbn [bind]. eexists. split; [reflexivity|]. constructor; [|exact Hl].
  repeat split. exists b. split; [|reflexivity]. now apply get_box_boxed.
Qed.

(** ** Edges *)
Lemma edges_filter a b es : length (filter (joins a b) es) = edges_between a b es.
Proof. induction es as [|[u v] es IH]; [reflexivity|]. cbn [filter edges_between]. unfold joins at 1. cbn [fst snd]. rewrite <- IH. destruct (_ || _)%bool; reflexivity. Qed.

Lemma joins_swap a b e : joins a b e = joins b a e.
Proof. unfold joins. apply orb_comm. Qed.
Lemma edges_swap a b es : edges_between a b es = edges_between b a es.
Proof. rewrite <- !edges_filter. f_equal. apply filter_ext. intros e. apply joins_swap. Qed.

Lemma fold_add_In l : forall acc x, In x (fold_left add_node l acc) <-> In x acc \/ In x l.
Proof.
  induction l as [|a l IH]; intros acc x; cbn [fold_left In]; [intuition|]. rewrite IH, add_node_In. intuition congruence.
Qed.
Lemma fold_add_NoDup l : forall acc, NoDup acc -> NoDup (fold_left add_node l acc).
Proof. induction l as [|a l IH]; intros acc H; [exact H|]. cbn [fold_left]. now apply IH, add_node_NoDup. Qed.

Lemma neighbours_In es n m : In m (neighbours es n) <-> 0 < edges_between n m es.
Proof.
  unfold neighbours. rewrite fold_add_In, in_flat_map. split.
  - intros [[]|([u v] & Hi & Hm)]. unfold other_end in Hm. cbn [fst snd] in Hm.
    induction es as [|[u' v'] es IH]; [destruct Hi|]. cbn [edges_between]. destruct Hi as [E|Hi]; [injection E as E1 E2; subst u' v'|specialize (IH Hi); lia].
    destruct (String.eqb_spec u n) as [->|]; [destruct Hm as [<-|[]]; rewrite !String.eqb_refl; cbn; lia|].
    destruct (String.eqb_spec v n) as [Ev|Ev]; [rewrite Ev in *|destruct Hm]. destruct Hm as [<-|[]]. rewrite !String.eqb_refl, orb_true_r. lia.
  - intros H. right. induction es as [|[u v] es IH]; cbn [edges_between] in H; [lia|].
    match type of H with context [if ?c then _ else _] => destruct c eqn:E end.
    + exists (u, v). split; [now left|]. unfold other_end. cbn [fst snd]. apply orb_true_iff in E.
      destruct E as [E|E]; apply andb_true_iff in E; destruct E as [E1 E2]; apply String.eqb_eq in E1, E2; subst.
      * rewrite String.eqb_refl. now left.
      * destruct (String.eqb_spec m n) as [->|]; [now left|]. rewrite String.eqb_refl. now left.
    + destruct (IH ltac:(lia)) as (e & Hi & He). exists e. split; [now right|exact He].
Qed.
Lemma neighbours_NoDup es n : NoDup (neighbours es n).
Proof. apply fold_add_NoDup. constructor. Qed.

Lemma between_app a b l l' : edges_between a b (l ++ l') = edges_between a b l + edges_between a b l'.
Proof. rewrite <- !edges_filter, filter_app, app_length. reflexivity. Qed.
Lemma between_repeat a b e k : edges_between a b (repeat e k) = if joins a b e then k else 0.
Proof.
  rewrite <- edges_filter. induction k as [|k IH]; cbn [repeat filter]; [now destruct (joins a b e)|].
  destruct (joins a b e); cbn [length]; lia.
Qed.

Lemma between_none a b es : (forall e, In e es -> fst e <> a /\ fst e <> b) -> edges_between a b es = 0.
Proof.
  induction es as [|[u v] es IH]; intros H; [reflexivity|]. cbn [edges_between]. destruct (H (u, v) (or_introl eq_refl)) as [Ha Hb]. cbn in Ha, Hb.
  destruct (String.eqb_spec u a), (String.eqb_spec u b); try contradiction. cbn. apply IH. intros e He. apply H. now right.
Qed.

(** The lines drawn in the turn of node [n]. *)
Definition turn (es : list (string * string)) (seen : list string) (n : string) : list (string * string) :=
  flat_map (fun m => if existsb (String.eqb m) seen then [] else repeat (n, m) (length (filter (joins n m) es))) (neighbours es n).

Lemma existsb_In m l : existsb (String.eqb m) l = true <-> In m l.
Proof.
  rewrite existsb_exists. split; [intros (x & H & E); apply String.eqb_eq in E; now subst|intros H; exists m; split; [exact H|apply String.eqb_refl]].
Qed.

Lemma turn_other es seen n a b : n <> a -> n <> b -> edges_between a b (turn es seen n) = 0.
Proof.
  intros Ha Hb. unfold turn. induction (neighbours es n) as [|m l IH]; [reflexivity|]. cbn [flat_map]. rewrite between_app, IH.
  destruct (existsb _ seen); [reflexivity|]. rewrite between_repeat. unfold joins. cbn [fst snd].
  destruct (String.eqb_spec n a), (String.eqb_spec n b); try contradiction. reflexivity.
Qed.

Lemma turn_own es seen n m : edges_between n m (turn es seen n) = if existsb (String.eqb m) seen then 0 else edges_between n m es.
Proof.
  unfold turn.
  assert (G : forall l, NoDup l -> edges_between n m (flat_map (fun m => if existsb (String.eqb m) seen then [] else repeat (n, m) (length (filter (joins n m) es))) l)
              = if existsb (String.eqb m) l then (if existsb (String.eqb m) seen then 0 else edges_between n m es) else 0).
  { induction 1 as [|x l Hx H IH]; [reflexivity|]. cbn [flat_map existsb]. rewrite between_app, IH.
    destruct (String.eqb_spec m x) as [<-|Hm]; cbn [orb].
    - replace (existsb (String.eqb m) l) with false; [|symmetry; apply not_true_iff_false; rewrite existsb_In; exact Hx].
      rewrite Nat.add_0_r. destruct (existsb _ seen); [reflexivity|]. rewrite between_repeat, edges_filter.
      unfold joins. cbn [fst snd]. now rewrite !String.eqb_refl.
    - match goal with |- ?k + _ = _ => enough (E : k = 0) by (rewrite E; reflexivity) end.
      destruct (existsb (String.eqb x) seen); [reflexivity|]. rewrite between_repeat. unfold joins. cbn [fst snd]. rewrite String.eqb_refl. cbn [andb].
      destruct (String.eqb_spec x m); [congruence|]. cbn [orb]. destruct (String.eqb_spec n m) as [->|]; [|reflexivity].
      destruct (String.eqb_spec x m); [congruence|]. reflexivity. }
  rewrite G by apply neighbours_NoDup. destruct (existsb (String.eqb m) (neighbours es n)) eqn:E; [reflexivity|].
  apply not_true_iff_false in E. rewrite existsb_In, neighbours_In in E. destruct (existsb _ seen); lia.
Qed.

Lemma list_edges_between es a b : forall nodes seen, NoDup nodes -> (forall n, In n nodes -> ~ In n seen) ->
  edges_between a b (list_edges es seen nodes)
  = if (existsb (String.eqb a) seen || existsb (String.eqb b) seen)%bool then 0
    else if (existsb (String.eqb a) nodes || existsb (String.eqb b) nodes)%bool then edges_between a b es else 0.
Proof.
  induction nodes as [|n nodes IH]; intros seen ND D; [cbn; now destruct (_ || _)%bool|].
  inversion ND as [|? ? Hn ND']; subst. cbn [list_edges]. fold (turn es seen n). rewrite between_app, IH; [|exact ND'|].
  2:{ intros x Hx [<-|Hs]; [contradiction|]. apply (D x); [now right|exact Hs]. }
  cbn [existsb]. 
  destruct (String.eqb_spec a n) as [->|Ha].
  - cbn [orb]. rewrite turn_own, Nat.add_0_r.
    replace (existsb (String.eqb n) seen) with false; [reflexivity|]. symmetry. apply not_true_iff_false. rewrite existsb_In. apply D. now left.
  - destruct (String.eqb_spec b n) as [->|Hb].
    + rewrite orb_true_r. cbn [orb]. rewrite orb_true_r, Nat.add_0_r, edges_swap, turn_own.
      replace (existsb (String.eqb n) seen) with false; [rewrite orb_false_r; rewrite edges_swap; reflexivity|].
      symmetry. apply not_true_iff_false. rewrite existsb_In. apply D. now left.
    + rewrite turn_other by congruence. reflexivity.
Qed.

(** ** Lines *)
Definition delta (u : R) : R := ((2 * u - 1) * PI / 4)%R.

Lemma delta_range u : (0 <= u <= 1)%R -> (- (PI / 4) <= delta u <= PI / 4)%R.
Proof. pose proof PI_RGT_0 as H. unfold delta. intros [H1 H2]. split; nra. Qed.

Lemma sq_dist p q : (dist p q ^ 2 = (fst q - fst p) ^ 2 + (snd q - snd p) ^ 2)%R.
Proof. unfold dist. rewrite <- Rsqr_pow2. apply Rsqr_sqrt. apply Rplus_le_le_0_compat; apply pow2_ge_0. Qed.

Lemma dist_pos p q : (0 <= dist p q)%R.
Proof. apply sqrt_pos. Qed.

(** The middle point. *)
Definition middle (arctan2 : R -> R -> R) (p q : R * R) (u : R) : R * R :=
  (fst p + 5 / 10 * dist p q * cos (arctan2 (snd q - snd p) (fst q - fst p) + delta u),
   snd p + 5 / 10 * dist p q * sin (arctan2 (snd q - snd p) (fst q - fst p) + delta u))%R.

Lemma bend_middle arctan2 p q u : bend arctan2 p q u = [p; middle arctan2 p q u; q].
Proof. destruct p, q. reflexivity. Qed.

(** The component across the line. *)
Definition across (p q m : R * R) : R := ((fst q - fst p) * (snd m - snd p) - (snd q - snd p) * (fst m - fst p))%R.

Lemma middle_along arctan2 p q u : direction arctan2 ->
  (along p q (middle arctan2 p q u) = dist p q ^ 2 / 2 * cos (delta u) /\ across p q (middle arctan2 p q u) = dist p q ^ 2 / 2 * sin (delta u))%R.
Proof.
  intros D. destruct (D (snd q - snd p)%R (fst q - fst p)%R) as [Dx Dy]. fold (dist p q) in Dx, Dy.
  unfold along, across, middle. cbn [fst snd]. set (a := arctan2 _ _) in *. set (r := dist p q) in *.
  rewrite cos_plus, sin_plus. rewrite <- Dx, <- Dy. pose proof (sin2_cos2 a) as H. unfold Rsqr in H.
  split.
  - transitivity (r ^ 2 / 2 * cos (delta u) * (sin a * sin a + cos a * cos a))%R; [field|rewrite H; ring].
  - transitivity (r ^ 2 / 2 * sin (delta u) * (sin a * sin a + cos a * cos a))%R; [field|rewrite H; ring].
Qed.

Lemma middle_dist arctan2 p q u : dist p (middle arctan2 p q u) = (dist p q / 2)%R.
Proof.
  unfold dist at 1, middle. cbn [fst snd]. set (a := (arctan2 _ _ + _)%R). set (r := dist p q).
  pose proof (sin2_cos2 a) as H. unfold Rsqr in H.
  match goal with |- sqrt ?x = _ => replace x with ((r / 2) ^ 2)%R end.
  - rewrite <- Rsqr_pow2. apply sqrt_Rsqr. pose proof (dist_pos p q). unfold r. lra.
  - transitivity ((r / 2) ^ 2 * (sin a * sin a + cos a * cos a))%R; [rewrite H; ring|field].
Qed.

Lemma cos_delta u : (0 <= u <= 1)%R -> (cos (PI / 4) <= cos (delta u))%R.
Proof.
  intros Hu. pose proof (delta_range Hu) as [H1 H2]. pose proof PI_RGT_0 as HP.
  destruct (Rle_or_lt 0 (delta u)).
  - apply cos_decr_1; lra.
  - rewrite <- (cos_neg (delta u)). apply cos_decr_1; lra.
Qed.

(** A line between two nodes: from one end to the other, its middle point halfway from the first end and
    at most 45 degrees off the straight line. *)
Definition joins_points (p q : R * R) (line : list (R * R)) : Prop :=
  exists m, line = [p; m; q] /\ dist p m = (dist p q / 2)%R /\ (dist p m * dist p q * cos (PI / 4) <= along p q m)%R.

Lemma bend_joins arctan2 p q u : direction arctan2 -> (0 <= u <= 1)%R -> joins_points p q (bend arctan2 p q u).
Proof.
  intros D Hu. exists (middle arctan2 p q u). split; [apply bend_middle|]. split; [apply middle_dist|].
  destruct (@middle_along arctan2 p q u D) as [-> _]. rewrite middle_dist.
  pose proof (cos_delta Hu) as Hc. pose proof (dist_pos p q) as Hd.
  replace (dist p q / 2 * dist p q * cos (PI / 4))%R with (dist p q ^ 2 / 2 * cos (PI / 4))%R by field.
  apply Rmult_le_compat_l; [nra|exact Hc].
Qed.

(** * C114 *)
Section C114.
Variables (X Dl : Type) (x0 : X) (d0 : Dl).
Variables (cs : list (string * buf X Dl)) (conns : list string) (b : buf X Dl).
Variables (comps : list (string * pycls)).
Variables (arctan2 : R -> R -> R) (pos : string -> R * R) (rand : nat -> R).

(** Every network with components of classes that descend from [object] is drawn: each component has exactly
    one text, its name, at its position, in the box of its class. *)
Theorem C114_labels draw : NoDup (map fst cs) -> net_buf x0 d0 cs conns = Ok b ->
  map fst comps = map fst cs -> Forall (fun c => descends (snd c)) comps ->
  exists g d, graph_method arctan2 draw comps conns pos rand = Ok (g, d) /\ graph (map fst cs) conns = Ok g /\
    Forall2 (labels pos) comps (d_labels d) /\ d_axis d = false.
Proof.
  intros ND Hb Hn Hd. destruct (C80_graph_partial ND Hb) as (nodes & edges & Hg & _ & _ & (r & Er) & _).
  unfold graph_method, graph_fn. rewrite Hn, Hg. cbn [bind fst]. 
  destruct (draw_nodes_labels pos r Hd) as (ls & Hl & Hf). rewrite Er, <- Hn, Hl. cbn [bind].
  eexists _, _. split; [reflexivity|]. cbn [d_labels d_axis]. auto.
Qed.

(** Between any two nodes there are as many lines as connections, each from one node to the other. *)
Theorem C114_lines draw : NoDup (map fst cs) -> net_buf x0 d0 cs conns = Ok b ->
  map fst comps = map fst cs -> Forall (fun c => descends (snd c)) comps ->
  direction arctan2 -> (forall k, (0 <= rand k <= 1)%R) ->
  exists nodes edges d drawn, graph_method arctan2 draw comps conns pos rand = Ok ((nodes, edges), d) /\
    Forall2 (edge_of cs) conns edges /\
    (forall u v, edges_between u v drawn = edges_between u v edges) /\
    Forall2 (fun e line => joins_points (pos (fst e)) (pos (snd e)) line) drawn (d_lines d).
Proof.
  intros ND Hb Hn Hd HD Hr. destruct (C80_graph_partial ND Hb) as (nodes & edges & Hg & He & Hnd & (r & Er) & Hx).
  unfold graph_method, graph_fn. rewrite Hn, Hg. cbn [bind fst]. 
  destruct (draw_nodes_labels pos r Hd) as (ls & Hl & Hf). rewrite Er, <- Hn, Hl. cbn [bind].
  exists nodes, edges. eexists. exists (list_edges edges [] nodes). rewrite Hn, <- Er. split; [reflexivity|]. split; [exact He|]. split.
  - intros u v. rewrite list_edges_between; [|exact Hnd|auto]. cbn [existsb orb].
    destruct (existsb (String.eqb u) nodes) eqn:Eu; [reflexivity|]. destruct (existsb (String.eqb v) nodes) eqn:Ev; [reflexivity|]. cbn [orb].
    symmetry. apply between_none. intros e Hin.
    assert (Hi : In (fst e) nodes).
    { rewrite Er. apply in_or_app. left. clear - He Hin. induction He as [|c e' ? ? Hc _ IH]; [destruct Hin|].
      destruct Hin as [->|Hin]; [|auto]. destruct Hc as [(? & ? & ? & ? & _ & -> & Hi & _)|(? & ? & ? & _ & -> & Hi)]; exact Hi. }
    apply existsb_In in Hi. split; intros E; rewrite E in Hi; congruence.
  - cbn [d_lines]. unfold draw_edges. cbn [fst snd]. set (l := list_edges edges [] nodes). generalize 0 as s0. induction l as [|e l IH]; intros s0; [constructor|].
    cbn [length seq combine map fst snd]. constructor; [|apply IH]. now apply bend_joins.
Qed.
End C114.

(** Two lines between the same two places differ, unless their random numbers are the same. *)
Theorem C114_parallel arctan2 p q u u' : direction arctan2 -> (0 <= u <= 1)%R -> (0 <= u' <= 1)%R -> p <> q ->
  bend arctan2 p q u = bend arctan2 p q u' -> u = u'.
Proof.
  intros D Hu Hu' Hpq E. rewrite !bend_middle in E. injection E as E.
  destruct (@middle_along arctan2 p q u D) as [_ A]. destruct (@middle_along arctan2 p q u' D) as [_ A']. 
  assert (Hm : middle arctan2 p q u = middle arctan2 p q u') by (unfold middle; f_equal; assumption).
  rewrite Hm, A' in A. 
  assert (Hd : (dist p q ^ 2 <> 0)%R).
  { rewrite sq_dist. intros E0. apply Hpq. clear - E0. destruct p as [px py], q as [qx qy]. cbn [fst snd] in E0. rewrite <- !Rsqr_pow2 in E0.
    destruct (Rplus_sqr_eq_0 _ _ E0). f_equal; lra. }
  pose proof (delta_range Hu) as R1. pose proof (delta_range Hu') as R2. pose proof PI_RGT_0 as HP.
  assert (Hs : sin (delta u) = sin (delta u')).
  { apply Rmult_eq_reg_l with (dist p q ^ 2 / 2)%R; [symmetry; exact A|lra]. }
  apply sin_inj in Hs; [|lra|lra]. unfold delta in Hs. 
  assert (Z : (((2 * u - 1) - (2 * u' - 1)) * PI = 0)%R) by lra. apply Rmult_integral in Z. lra.
Qed.

(** ** What is not drawn as asked *)
Definition a_connection : buf nat nat :=
  {| b_np := 2; b_C := fun _ _ => false; b_src := fun _ => false; b_det := fun _ => false; b_act := fun _ => false;
     b_order := [0; 1]; b_S := fun _ _ => 0; b_del := fun _ => 0 |}.
Definition object := Cls "object" None.
Definition component_cls := Cls "Component" (Some (Cls "Module" (Some (Cls "Module" (Some object))))).
Definition connection_cls := Cls "Connection" (Some component_cls).
Definition waveguide_cls := Cls "Waveguide" (Some connection_cls).

(** [network.graph(draw=False)] draws: whatever the argument, the drawing is the same. *)
Theorem C114_draw_refuted arctan2 comps conns pos rand :
  graph_method arctan2 false comps conns pos rand = graph_method arctan2 true comps conns pos rand /\
  exists g d, graph_method arctan2 false [("wg", waveguide_cls)] ["wg:0:0"; "wg:1:1"] pos rand = Ok (g, d) /\ length (d_labels d) = 1 /\ length (d_lines d) = 2 /\ d <> blank.
Proof.
  split; [reflexivity|]. eexists _, _. split; [reflexivity|]. cbn [d_labels d_lines]. repeat split. discriminate.
Qed.

(** A connection of a component with itself is drawn as a single point, under the text. *)
Theorem C114_loop_refuted arctan2 p u : bend arctan2 p p u = [p; p; p].
Proof.
  rewrite bend_middle. f_equal. f_equal. unfold middle, dist. destruct p as [x y]. cbn [fst snd].
  replace ((x - x) ^ 2 + (y - y) ^ 2)%R with 0%R by ring. rewrite sqrt_0. f_equal; ring.
Qed.

(** External ports are nodes without a text. *)
Theorem C114_external_refuted arctan2 pos rand : exists g d,
  graph_method arctan2 true [("a", waveguide_cls); ("b", waveguide_cls)] ["a:0:0"; "a:1:b:0"; "b:1:1"] pos rand = Ok (g, d) /\
  fst g = ["a"; "b"; "0"; "1"] /\ map l_text (d_labels d) = ["a"; "b"].
Proof. eexists _, _. split; [reflexivity|]. split; reflexivity. Qed.

(** The boxes of the classes of photontorch; the SOA of Agrawal and the linear one do not look like [Soa]. *)
Definition sub (n : string) (c : pycls) : pycls := Cls n (Some c).
Theorem C114_classes :
  Forall (fun cb => descends (fst cb) /\ boxed (fst cb) (snd cb))
    [(component_cls, Some "C1"); (connection_cls, None); (waveguide_cls, None); (sub "Term" component_cls, None);
     (sub "Source" (sub "Term" component_cls), Some "C3"); (sub "Detector" (sub "Term" component_cls), Some "C2");
     (sub "Mirror" component_cls, Some "C0"); (sub "Mzi" component_cls, Some "C1"); (sub "Mmi" component_cls, Some "C1");
     (sub "DirectionalCoupler" component_cls, Some "C0"); (sub "DirectionalCouplerWithLength" component_cls, Some "C0");
     (sub "RealisticDirectionalCoupler" component_cls, Some "C0"); (sub "GratingCoupler" component_cls, Some "C6");
     (sub "LinearSoa" component_cls, Some "C1"); (sub "BaseSoa" component_cls, Some "C1");
     (sub "Soa" (sub "BaseSoa" component_cls), Some "C4"); (sub "AgrawalSoa" (sub "BaseSoa" component_cls), Some "C1");
     (sub "Network" component_cls, Some "C1"); (sub "ClementsNxN" (sub "Network" component_cls), Some "C1");
     (sub "ReckNxN" (sub "Network" component_cls), Some "C1"); (sub "RingNetwork" (sub "Network" component_cls), Some "C1")].
Proof.
  repeat (constructor; [split; [cbn [fst]; unfold sub, waveguide_cls, connection_cls, component_cls, object; repeat constructor|cbn [fst snd]; apply get_box_boxed; reflexivity]|]). constructor.
Qed.

(** Giving a component bounded parameters replaces its class by a subclass of the same name (nn.py:155-159);
    the box stays the same. *)
Theorem C114_subclass n b c : boxed (Cls n b) c -> boxed (sub n (Cls n b)) c.
Proof.
  intros H. apply get_box_boxed. apply get_box_boxed in H. cbn [sub get_box] in *. destruct (box_table n) as [[f|]|]; [exact H|exact H|].
  unfold sub. cbn [get_box]. exact H.
Qed.

Definition atan2_quadrants (y x : R) : R :=
  if Rlt_dec 0 x then atan (y / x)
  else if Rlt_dec x 0 then (atan (y / x) + PI)%R
  else if Rle_dec 0 y then (PI / 2)%R else (- (PI / 2))%R.

Lemma atan2_direction : direction atan2_quadrants.
Proof.
  assert (G : forall y x, (x <> 0 -> sqrt (x ^ 2 + y ^ 2) = Rabs x * sqrt (1 + (y / x)²))%R).
  { intros y x Hx. replace (x ^ 2 + y ^ 2)%R with (x² * (1 + (y / x)²))%R by (unfold Rsqr; field; exact Hx).
    rewrite sqrt_mult_alt by apply Rle_0_sqr. now rewrite sqrt_Rsqr_abs. }
  assert (P : forall t, (sqrt (1 + t²) <> 0)%R).
  { intros t H. apply sqrt_eq_0 in H; pose proof (Rle_0_sqr t); lra. }
  intros y x. unfold atan2_quadrants. destruct (Rlt_dec 0 x) as [Hx|Hx]; [|destruct (Rlt_dec x 0) as [Hx'|Hx']].
  - rewrite G by lra. rewrite cos_atan, sin_atan, (Rabs_pos_eq x) by lra. pose proof (P (y / x)%R). split; field; lra.
  - rewrite G by lra. rewrite neg_cos, neg_sin, cos_atan, sin_atan, (Rabs_left x) by lra. pose proof (P (y / x)%R). split; field; lra.
  - replace x with 0%R by lra. replace (0 ^ 2 + y ^ 2)%R with (y²)%R by (unfold Rsqr; ring). rewrite sqrt_Rsqr_abs.
    destruct (Rle_dec 0 y).
    + rewrite cos_PI2, sin_PI2, Rabs_pos_eq by assumption. split; ring.
    + rewrite cos_neg, sin_neg, cos_PI2, sin_PI2, Rabs_left by lra. split; ring.
Qed.

Example C114_ex : NoDup (map fst [("a", a_connection); ("b", a_connection)]) /\
  (exists b, net_buf 0 0 [("a", a_connection); ("b", a_connection)] ["a:1:b:0"; "b:1:a:0"] = Ok b) /\
  Forall (fun c => descends (snd c)) [("a", waveguide_cls); ("b", waveguide_cls)].
Proof.
  split; [repeat constructor; cbn; intuition discriminate|]. split; [eexists; vm_compute; reflexivity|].
  repeat constructor.
Qed.

Print Assumptions C114_labels.
Print Assumptions C114_lines.
Print Assumptions C114_parallel.
Print Assumptions C114_draw_refuted.
Print Assumptions C114_loop_refuted.
Print Assumptions C114_external_refuted.
Print Assumptions C114_classes.
Print Assumptions C114_subclass.
