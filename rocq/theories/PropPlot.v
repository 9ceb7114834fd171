(** C65, C79, C80, C81: plots and graphs. *)
From Coq Require Import QArith Qround Qpower Permutation.
From Verif Require Import Base PyStr NetModel NetSpec NetProofs WireProofs OrderProofs StateProofs PlotModel.
Set Implicit Arguments.
Unset Strict Implicit.
Local Open Scope string_scope.
Local Open Scope list_scope.
Local Open Scope nat_scope.

(** * Specification *)

(** Wavelengths in nanometres, rounded down. *)
Definition nm_text (wl : Q) : string := (dec_Z (Qfloor (1000000000 * wl)) ++ "nm")%string.

(** The label of the curve of wavelength [w], detector [d] and batch [b]: the batch, the wavelength and
    the detector's name, each only when there is more than one; the word "batch" when the batches are
    the only thing that varies. *)
Definition expected_label (wl : list Q) (names : list string) (W D B : nat) (w d b : nat) : option string :=
  let bs := if B =? 1 then [] else [dec_nat b] in
  let ws := if W =? 1 then [] else [nm_text (nth w wl 0%Q)] in
  let ds := if D =? 1 then [] else [nth d names ""] in
  match (bs ++ ws ++ ds)%list with
  | [] => None
  | l => Some (if (W =? 1) && (D =? 1) then ("batch " ++ dec_nat b)%string else String.concat " | " l)
  end.

(** Batches, wavelengths, detectors: the detectors run fastest. *)
Definition all_curves (B W D : nat) : list (nat * nat * nat) := list_prod (list_prod (seq 0 B) (seq 0 W)) (seq 0 D).

(** * Lists *)
Section Aux.
Variable V : Type.

Lemma map_tuples A (f : list nat -> A) n s :
  map f (tuples (n :: s)) = flat_map (fun i => map (fun r => f (i :: r)) (tuples s)) (seq 0 n).
Proof. cbn [tuples]. induction (seq 0 n) as [|i l IH]; [reflexivity|]. cbn [flat_map]. rewrite map_app, IH, map_map. reflexivity. Qed.

Lemma seq_map_nth A B (l : list A) d (f : A -> B) n : length l = n -> map f l = map (fun i => f (nth i l d)) (seq 0 n).
Proof.
  intros <-. induction l as [|a l IH]; [reflexivity|]. cbn [map length seq nth]. f_equal.
  rewrite IH, <- seq_shift, map_map. reflexivity.
Qed.
Lemma seq_flat_nth A B (l : list A) d (f : A -> list B) n : length l = n -> flat_map f l = flat_map (fun i => f (nth i l d)) (seq 0 n).
Proof. intros H. rewrite !flat_map_concat_map. f_equal. now apply seq_map_nth. Qed.

Definition drawn (cs : list (option string * (nat -> V))) (js : list (option string * (nat -> V))) : Prop :=
  Forall2 (fun c q => fst c = fst q /\ forall i, snd c i = snd q i) cs js.

Lemma draw_map A (l : list A) (f : A -> nat -> V) (g : A -> string) :
  draw (map f l) (map g l) = map (fun a => (Some (g a), f a)) l.
Proof. induction l as [|a l IH]; [reflexivity|]. cbn [map draw]. now rewrite IH. Qed.
Lemma draw_none A (l : list A) (f : A -> nat -> V) : draw (map f l) [] = map (fun a => (None, f a)) l.
Proof. induction l as [|a l IH]; [reflexivity|]. cbn [map draw]. now rewrite IH. Qed.

Lemma draw_length (cols : list (nat -> V)) labels : length (draw cols labels) = length cols.
Proof. revert labels. induction cols as [|c cols IH]; intros [|l labels]; cbn; auto. Qed.
Lemma draw_labels (cols : list (nat -> V)) labels : length labels = length cols -> map fst (draw cols labels) = map Some labels.
Proof. revert labels. induction cols as [|c cols IH]; intros [|l labels]; cbn; intros E; try lia; [reflexivity|]. f_equal. apply IH. lia. Qed.

Lemma flat_length A A' (f : A -> list A') k l : (forall a, length (f a) = k) -> length (flat_map f l) = length l * k.
Proof. intros H. induction l as [|a l IH]; [reflexivity|]. cbn. rewrite app_length, H, IH. reflexivity. Qed.
Lemma tuples_length s : length (tuples s) = fold_right Nat.mul 1 s.
Proof.
  induction s as [|n s IH]; [reflexivity|]. cbn [tuples fold_right].
  rewrite (@flat_length _ _ _ (length (tuples s))) by (intros; apply map_length). now rewrite seq_length, IH.
Qed.

Lemma prod1 A B C (f : B -> C) (a : A) (l : list B) (g : A * B -> C) : (forall b, g (a, b) = f b) -> map g (map (pair a) l) = map f l.
Proof. intros H. rewrite map_map. now apply map_ext. Qed.

Lemma map_prod A B C (f : A * B -> C) la lb : map f (list_prod la lb) = flat_map (fun a => map (fun b => f (a, b)) lb) la.
Proof. induction la as [|a la IH]; [reflexivity|]. cbn [list_prod flat_map]. rewrite map_app, IH, map_map. reflexivity. Qed.
Lemma flat_prod A B C (f : A * B -> list C) la lb : flat_map f (list_prod la lb) = flat_map (fun a => flat_map (fun b => f (a, b)) lb) la.
Proof. rewrite flat_map_concat_map, map_prod. induction la as [|a la IH]; [reflexivity|]. cbn [flat_map]. rewrite concat_app, IH. f_equal. now rewrite flat_map_concat_map. Qed.
Lemma map_all3 C (f : nat * nat * nat -> C) B W D :
  map f (all_curves B W D) = flat_map (fun b => flat_map (fun w => map (fun d => f (b, w, d)) (seq 0 D)) (seq 0 W)) (seq 0 B).
Proof. unfold all_curves. rewrite map_prod, flat_prod. reflexivity. Qed.
End Aux.

Lemma nm_text_label wl : (0 <= wl)%Q -> wl_label wl = nm_text wl.
Proof.
  intros H. unfold wl_label, nm_text. f_equal. f_equal. destruct wl as [a p]. unfold Qle in H. cbn in H.
  cbn [Qnum Qden]. rewrite Z.quot_div_nonneg by lia. unfold Qfloor. cbn. destruct a; reflexivity.
Qed.

Lemma names_map (l : list string) n : length l = n -> l = map (fun d => nth d l "") (seq 0 n).
Proof. intros H. rewrite <- (map_id l) at 1. exact (@seq_map_nth _ _ l "" (fun x => x) n H). Qed.

Lemma prefix_ok g : (-12 <= g <= 17)%Z -> exists p, assoc Z.eqb (g / 3 * 3 - 3)%Z prefixes = Some p.
Proof.
  intros H. assert (Hd : (-4 <= g / 3 <= 5)%Z).
  { split; [apply Z.div_le_lower_bound; lia|]. assert (g / 3 < 6)%Z; [apply Z.div_lt_upper_bound; lia|lia]. }
  assert (C : (g / 3 = -4 \/ g / 3 = -3 \/ g / 3 = -2 \/ g / 3 = -1 \/ g / 3 = 0 \/ g / 3 = 1 \/ g / 3 = 2 \/ g / 3 = 3 \/ g / 3 = 4 \/ g / 3 = 5)%Z) by lia.
  destruct C as [C|[C|[C|[C|[C|[C|[C|[C|[C|C]]]]]]]]]; rewrite C; eexists; reflexivity.
Qed.

Lemma tup1 A (f : list nat -> A) a : map f (tuples [a]) = map (fun i => f [i]) (seq 0 a).
Proof. rewrite map_tuples. induction (seq 0 a) as [|i l IH]; [reflexivity|]. cbn in *. now rewrite IH. Qed.
Lemma tup2 A (f : list nat -> A) a b : map f (tuples [a; b]) = flat_map (fun i => map (fun j => f [i; j]) (seq 0 b)) (seq 0 a).
Proof. rewrite map_tuples. apply flat_map_ext. intros i. apply (tup1 (fun r => f (i :: r))). Qed.
Lemma tup3 A (f : list nat -> A) a b c :
  map f (tuples [a; b; c]) = flat_map (fun i => flat_map (fun j => map (fun k => f [i; j; k]) (seq 0 c)) (seq 0 b)) (seq 0 a).
Proof. rewrite map_tuples. apply flat_map_ext. intros i. apply (tup2 (fun r => f (i :: r))). Qed.

Lemma fm_one A (f : nat -> list A) : flat_map f (seq 0 1) = f 0.
Proof. cbn. apply app_nil_r. Qed.
Lemma fm_single A A' (f : A -> A') l : flat_map (fun a => [f a]) l = map f l.
Proof. induction l as [|a l IH]; [reflexivity|]. cbn. now rewrite IH. Qed.

Lemma prod_one A A' (f : A * nat -> A') l : map f (list_prod l (seq 0 1)) = map (fun a => f (a, 0)) l.
Proof. rewrite map_prod. apply fm_single. Qed.

Section Cases.
Variables (C : Type) (f : nat * nat * nat -> C) (B W D : nat).
Lemma all_b : map f (all_curves B 1 1) = map (fun b => f (b, 0, 0)) (seq 0 B).
Proof. rewrite map_all3, <- fm_single. apply flat_map_ext. intros b. now rewrite fm_one. Qed.
Lemma all_w : map f (all_curves 1 W 1) = map (fun w => f (0, w, 0)) (seq 0 W).
Proof. rewrite map_all3, fm_one. apply fm_single. Qed.
Lemma all_d : map f (all_curves 1 1 D) = map (fun d => f (0, 0, d)) (seq 0 D).
Proof. now rewrite map_all3, !fm_one. Qed.
Lemma all_bw : map f (all_curves B W 1) = flat_map (fun b => map (fun w => f (b, w, 0)) (seq 0 W)) (seq 0 B).
Proof. rewrite map_all3. apply flat_map_ext. intros b. apply fm_single. Qed.
Lemma all_bd : map f (all_curves B 1 D) = flat_map (fun b => map (fun d => f (b, 0, d)) (seq 0 D)) (seq 0 B).
Proof. rewrite map_all3. apply flat_map_ext. intros b. apply fm_one. Qed.
Lemma all_wd : map f (all_curves 1 W D) = flat_map (fun w => map (fun d => f (0, w, d)) (seq 0 D)) (seq 0 W).
Proof. now rewrite map_all3, fm_one. Qed.
End Cases.

(** * C65: arrays of all four dimensions *)
Lemma fm_map A A' A'' (h : A' -> list A'') (g : A -> A') (l : list A) : flat_map h (map g l) = flat_map (fun a => h (g a)) l.
Proof. induction l as [|a l IH]; [reflexivity|]. cbn. now rewrite IH. Qed.
Lemma Forall2_map A B' C' (R : B' -> C' -> Prop) (f : A -> B') (g : A -> C') l :
  (forall a, R (f a) (g a)) -> Forall2 R (map f l) (map g l).
Proof. intros H. induction l as [|a l IH]; [constructor|]. cbn. constructor; auto. Qed.

Lemma draw_flat (V : Type) (l : list (nat * nat * nat)) (cols : list (nat -> V)) labels (f : nat * nat * nat -> nat -> V) (g : nat * nat * nat -> string)
  (R : option string * (nat -> V) -> nat * nat * nat -> Prop) :
  cols = map f l -> labels = map g l -> (forall q, R (Some (g q), f q) q) -> Forall2 R (draw cols labels) l.
Proof. intros -> -> H. rewrite draw_map. rewrite <- (map_id l) at 2. now apply Forall2_map. Qed.
Lemma draw_flat0 (V : Type) (l : list (nat * nat * nat)) (cols : list (nat -> V)) (f : nat * nat * nat -> nat -> V)
  (R : option string * (nat -> V) -> nat * nat * nat -> Prop) :
  cols = map f l -> (forall q, R (None, f q) q) -> Forall2 R (draw cols []) l.
Proof. intros -> H. rewrite draw_none. rewrite <- (map_id l) at 2. now apply Forall2_map. Qed.

Section Full.
Variables (V : Type) (f32 : V -> V) (n : list part) (e : environ) (y : array V).
Variables (T W D B : nat).
Notation exp := (expected_label (pe_wl e) (detector_names n) W D B).

Definition label_of (q : nat * nat * nat) : string :=
  let '(b, w, d) := q in match exp w d b with Some l => l | None => "" end.
(** The environment and the network the array belongs to. *)
Record matches : Prop := {
  m_shape : shape y = [T; W; D; B];
  m_t : pe_num_t e = T;
  m_w : pe_num_wl e = W;
  m_wl : length (pe_wl e) = W;
  m_pos : forall x, In x (pe_wl e) -> (0 <= x)%Q;
  m_names : length (detector_names n) = D;
  m_d : num_detectors n = D }.

Hypothesis M : matches.
Lemma wl_map : map wl_label (pe_wl e) = map (fun w => nm_text (nth w (pe_wl e) 0%Q)) (seq 0 W).
Proof.
  rewrite <- (@seq_map_nth _ _ (pe_wl e) 0%Q nm_text W (m_wl M)). apply map_ext_in. intros x Hx. now apply nm_text_label, (m_pos M).
Qed.
Lemma det_map A (f : string -> A) : map f (detector_names n) = map (fun d => f (nth d (detector_names n) "")) (seq 0 D).
Proof. apply seq_map_nth. exact (m_names M). Qed.

Lemma label_some q : W <> 1 \/ D <> 1 \/ B <> 1 -> let '(b, w, d) := q in exp w d b = Some (label_of q).
Proof.
  destruct q as [[b w] d]. intros H. unfold label_of, expected_label.
  destruct (Nat.eqb_spec W 1), (Nat.eqb_spec D 1), (Nat.eqb_spec B 1); try reflexivity. lia.
Qed.
End Full.

Ltac lab H := intros; unfold label_of, expected_label; cbn [fst snd]; repeat match goal with
  | |- context [Nat.eqb ?a 1] => destruct (Nat.eqb_spec a 1); try (exfalso; lia) end; reflexivity.

Lemma labelled_time V (f32 : V -> V) n e y T W D B : matches n e y T W D B -> T <> 1 ->
  exists y' labels, labelled n e true (squeeze (convert f32 y)) = Ok (y', labels) /\
  Forall2 (fun c q => let '(b, w, d) := q in
             fst c = expected_label (pe_wl e) (detector_names n) W D B w d b /\ forall t, snd c t = f32 (get y [t; w; d; b]))
          (draw (columns y') labels) (all_curves B W D).
Proof.
  intros M T1. pose proof (wl_map M) as Ew. pose proof (det_map M) as Ed.
  unfold labelled, squeeze, convert. cbn [shape get]. rewrite (m_shape M).
  cbn [filter unsqueeze]. rewrite (m_w M), (m_d M).
  destruct (Nat.eqb_spec T 1) as [|_]; [contradiction|]. cbn [negb].
  set (F := fun (q : nat * nat * nat) (t : nat) => f32 (get y [t; snd (fst q); snd q; fst (fst q)])).
  assert (Fin : forall cols labels, W <> 1 \/ D <> 1 \/ B <> 1 -> cols = map F (all_curves B W D) -> labels = map (label_of n e W D B) (all_curves B W D) ->
     Forall2 (fun (c : option string * (nat -> V)) q => let '(b, w, d) := q in
             fst c = expected_label (pe_wl e) (detector_names n) W D B w d b /\ forall t, snd c t = f32 (get y [t; w; d; b]))
          (draw cols labels) (all_curves B W D)).
  { intros cols labels H1 H2 H3. eapply draw_flat; [exact H2|exact H3|]. intros q.
    pose proof (label_some n e q H1) as Hq. destruct q as [[b w] d]. cbn [fst snd]. rewrite Hq. split; reflexivity. }
  destruct (Nat.eqb_spec W 1) as [W1|W1], (Nat.eqb_spec D 1) as [D1|D1], (Nat.eqb_spec B 1) as [B1|B1]; cbn [negb tl andb];
    rewrite ?Nat.eqb_refl;
    repeat match goal with |- context [Nat.eqb ?a ?b] => destruct (Nat.eqb_spec a b); [exfalso; lia|] end; cbn [andb];
    try (do 2 eexists; split; [reflexivity|]; apply Fin; [lia| |]).
  - do 2 eexists. split; [reflexivity|].
    apply draw_flat0 with (f := F).
    + subst W D B. reflexivity.
    + intros [[b w] d]. cbn [fst snd]. split; [|reflexivity]. subst W D B. reflexivity.
  - subst W D. rewrite all_b. unfold columns. cbn [shape tl]. apply tup1.
  - subst W D. rewrite all_b. apply map_ext. lab n.
  - subst W B. rewrite all_d. unfold columns. cbn [shape tl]. apply tup1.
  - subst W B. rewrite all_d, <- (map_id (detector_names n)) at 1. rewrite Ed. apply map_ext. lab n.
  - subst W. rewrite all_bd. unfold columns. cbn [shape tl transpose map nth]. apply tup2.
  - subst W. rewrite all_bd. apply flat_map_ext. intros b. rewrite Ed. apply map_ext. lab n.
  - subst D B. rewrite all_w. unfold columns. cbn [shape tl]. apply tup1.
  - subst D B. rewrite all_w, Ew. apply map_ext. lab n.
  - subst D. rewrite all_bw. unfold columns. cbn [shape tl transpose map nth]. apply tup2.
  - subst D. rewrite all_bw. apply flat_map_ext. intros b. rewrite Ew, map_map. apply map_ext. lab n.
  - subst B. rewrite all_wd. unfold columns. cbn [shape tl transpose map nth]. apply tup2.
  - subst B. rewrite all_wd, Ew, fm_map. apply flat_map_ext. intros w. rewrite Ed. apply map_ext. lab n.
  - rewrite map_all3. unfold columns. cbn [shape tl transpose map nth]. apply tup3.
  - rewrite map_all3. apply flat_map_ext. intros b. rewrite Ew, fm_map. apply flat_map_ext. intros w. rewrite Ed. apply map_ext. lab n.
Qed.

Lemma labelled_wl V (f32 : V -> V) n e y W D B : matches n e y 1 W D B -> W <> 1 ->
  exists y' labels, labelled n e false (squeeze (convert f32 y)) = Ok (y', labels) /\
  Forall2 (fun c q => let '(b, d) := q in
             fst c = expected_label (pe_wl e) (detector_names n) 1 D B 0 d b /\ forall w, snd c w = f32 (get y [0; w; d; b]))
          (draw (columns y') labels) (list_prod (seq 0 B) (seq 0 D)).
Proof.
  intros M W1. pose proof (det_map M) as Ed.
  unfold labelled, squeeze, convert. cbn [shape get]. rewrite (m_shape M).
  cbn [filter unsqueeze]. rewrite (m_w M), (m_d M).
  destruct (Nat.eqb_spec W 1) as [|_]; [contradiction|]. cbn [negb Nat.eqb].
  set (F := fun (q : nat * nat) (w : nat) => f32 (get y [0; w; snd q; fst q])).
  set (L := fun q : nat * nat => label_of n e 1 D B (fst q, 0, snd q)).
  assert (Fin : forall cols labels, D <> 1 \/ B <> 1 -> cols = map F (list_prod (seq 0 B) (seq 0 D)) -> labels = map L (list_prod (seq 0 B) (seq 0 D)) ->
     Forall2 (fun (c : option string * (nat -> V)) q => let '(b, d) := q in
             fst c = expected_label (pe_wl e) (detector_names n) 1 D B 0 d b /\ forall w, snd c w = f32 (get y [0; w; d; b]))
          (draw cols labels) (list_prod (seq 0 B) (seq 0 D))).
  { intros cols labels H1 -> ->. rewrite draw_map. rewrite <- (map_id (list_prod (seq 0 B) (seq 0 D))) at 2. apply Forall2_map.
    intros [b d]. pose proof (@label_some n e 1 D B (b, 0, d) ltac:(lia)) as Hq. cbn [fst snd]. rewrite Hq. split; reflexivity. }
  destruct (Nat.eqb_spec D 1) as [D1|D1], (Nat.eqb_spec B 1) as [B1|B1]; cbn [negb tl andb];
    rewrite ?Nat.eqb_refl;
    repeat match goal with |- context [Nat.eqb ?a ?b] => destruct (Nat.eqb_spec a b); [exfalso; lia|] end; cbn [andb];
    try (do 2 eexists; split; [reflexivity|]; apply Fin; [lia| |]).
  - do 2 eexists. split; [reflexivity|]. subst D B. cbn. constructor; [|constructor]. split; reflexivity.
  - subst D. rewrite prod_one. unfold columns. cbn [shape tl]. apply tup1.
  - subst D. rewrite prod_one. apply map_ext. subst L. lab n.
  - subst B. rewrite map_prod, fm_one. unfold columns. cbn [shape tl]. apply tup1.
  - subst B. rewrite map_prod, fm_one, <- (map_id (detector_names n)) at 1. rewrite Ed. apply map_ext. subst L. lab n.
  - rewrite map_prod. unfold columns. cbn [shape tl transpose map nth]. apply tup2.
  - rewrite map_prod. apply flat_map_ext. intros b. rewrite Ed. apply map_ext. subst L. lab n.
Qed.

Lemma not_single s : single s = true -> exists a b, s = [1; 1; a; b].
Proof. destruct s as [|[|[|]] [|[|[|]] [|a [|b [|]]]]]; try discriminate. eauto. Qed.

(** For every number of time steps, wavelengths, detectors and batches, plotting the detected powers of
    the current simulation draws one curve for every wavelength, detector and batch, with its values and
    its label.  [digits] may be any function; the theorem needs a time scale with an SI prefix. *)
Theorem C65_time_partial (V : Type) (f32 : V -> V) (digits : list Q -> res Z) (n : list part) (e : environ) (y : array V) T W D B g :
  matches n e y T W D B -> T <> 1 ->
  digits (pe_t e) = Ok g -> (-12 <= g <= 17)%Z ->
  exists fig, plot f32 digits n e y = Ok fig /\
    Forall2 (fun c q => let '(b, w, d) := q in
               fst c = expected_label (pe_wl e) (detector_names n) W D B w d b
               /\ forall t, snd c t = f32 (get y [t; w; d; b]))
            (curves fig) (all_curves B W D).
Proof.
  intros M T1 Hg Hr. destruct (prefix_ok Hr) as [pre Hpre].
  destruct (@labelled_time V f32 n e y T W D B M T1) as (y' & labels & El & Hf).
  unfold plot. destruct (single (shape y)) eqn:Es.
  { apply not_single in Es. destruct Es as (a & b & E). rewrite (m_shape M) in E. congruence. }
  assert (Esh : exists r, shape (squeeze (convert f32 y)) = T :: r).
  { unfold squeeze, convert. cbn [shape]. rewrite (m_shape M). cbn [filter]. destruct (Nat.eqb_spec T 1); [contradiction|]. cbn. eauto. }
  destruct Esh as [r ->]. rewrite (m_t M), Nat.eqb_refl. cbn [bind]. rewrite Hg. cbn [bind]. rewrite Hpre. cbn [bind of_option].
  rewrite El. cbn [bind fst snd]. eexists. split; [reflexivity|]. exact Hf.
Qed.

(** The same for frequency-domain simulations: curves against the wavelength. *)
Theorem C65_wavelength_partial (V : Type) (f32 : V -> V) (digits : list Q -> res Z) (n : list part) (e : environ) (y : array V) W D B g :
  matches n e y 1 W D B -> W <> 1 ->
  digits (pe_wl e) = Ok g -> (-12 <= g <= 17)%Z ->
  exists fig, plot f32 digits n e y = Ok fig /\
    Forall2 (fun c q => let '(b, d) := q in
               fst c = expected_label (pe_wl e) (detector_names n) 1 D B 0 d b
               /\ forall w, snd c w = f32 (get y [0; w; d; b]))
            (curves fig) (list_prod (seq 0 B) (seq 0 D)).
Proof.
  intros M W1 Hg Hr. destruct (prefix_ok Hr) as [pre Hpre].
  destruct (@labelled_wl V f32 n e y W D B M W1) as (y' & labels & El & Hf).
  unfold plot. destruct (single (shape y)) eqn:Es.
  { apply not_single in Es. destruct Es as (a & b & E). rewrite (m_shape M) in E. congruence. }
  assert (Esh : exists r, shape (squeeze (convert f32 y)) = W :: r).
  { unfold squeeze, convert. cbn [shape]. rewrite (m_shape M). cbn [filter]. destruct (Nat.eqb_spec W 1); [contradiction|]. cbn. eauto. }
  destruct Esh as [r ->]. rewrite (m_t M), (m_w M), Nat.eqb_refl. destruct (Nat.eqb_spec 1 W); [lia|].
  cbn [bind]. rewrite Hg. cbn [bind]. rewrite Hpre. cbn [bind of_option].
  rewrite El. cbn [bind fst snd]. eexists. split; [reflexivity|]. exact Hf.
Qed.

(** A single time step and a single wavelength cannot be plotted. *)
Theorem C65_single (V : Type) (f32 : V -> V) (digits : list Q -> res Z) (n : list part) (e : environ) (y : array V) D B :
  shape y = [1; 1; D; B] -> plot f32 digits n e y = Err ValueError.
Proof. intros H. unfold plot. rewrite H. reflexivity. Qed.

Theorem C65_nothing (V : Type) (f32 : V -> V) (digits : list Q -> res Z) (n : list part) (e : environ) (y : array V) :
  Forall (eq 1) (shape y) -> length (shape y) <> 4 -> plot f32 digits n e y = Err IndexError.
Proof.
  intros H L. unfold plot. assert (S : single (shape y) = false).
  { destruct (shape y) as [|a [|b [|c [|d [|]]]]]; try (cbn in L; contradiction); cbn; try reflexivity; destruct a as [|[|]]; try reflexivity; destruct b as [|[|]]; reflexivity. }
  rewrite S. unfold squeeze, convert. cbn [shape].
  replace (filter (fun n0 => negb (n0 =? 1)) (shape y)) with (@nil nat); [reflexivity|].
  clear - H. induction (shape y) as [|a l IH]; [reflexivity|]. inversion H as [|a' l' Ha Hl]; subst. cbn. apply IH, Hl.
Qed.

(** The detector names belong to the curves: the d-th detector port of the network is the port of the
    d-th name, when all detectors are components of the network itself. *)
Section Detectors.
Variables (X Dl : Type) (x0 : X) (d0 : Dl).
Definition count_det (c : buf X Dl) : nat := length (filter (b_det c) (seq 0 (b_np c))).
Definition parts_of (isdet : string -> bool) (cs : list (string * buf X Dl)) : list part :=
  map (fun nc => {| c_name := fst nc; c_detector := isdet (fst nc); c_num_det := count_det (snd nc) |}) cs.

Lemma parts_names isdet cs : detector_names (parts_of isdet cs) = filter isdet (map fst cs).
Proof. unfold detector_names, parts_of. induction cs as [|[n c] cs IH]; [reflexivity|]. cbn. destruct (isdet n); cbn; now rewrite IH. Qed.

Definition flat_detectors (isdet : string -> bool) (cs : list (string * buf X Dl)) : Prop :=
  forall n c, In (n, c) cs -> if isdet n then b_np c = 1 /\ b_det c 0 = true else forall q, q < b_np c -> b_det c q = false.

Lemma located_cons n (c : buf X Dl) cs p m c' q : located cs p m c' q -> located ((n, c) :: cs) (b_np c + p) m c' q.
Proof. intros (pre & post & -> & -> & L). exists ((n, c) :: pre), post. rewrite ports_before_cons. split; [reflexivity|]. split; [lia|exact L]. Qed.

Lemma det_ports_blocks isdet cs : flat_detectors isdet cs ->
  Forall2 (fun p n => exists c, located cs p n c 0 /\ b_det c 0 = true)
    (filter (block_vec (@b_det X Dl) false cs) (seq 0 (total_ports cs))) (filter isdet (map fst cs)).
Proof.
  induction cs as [|[n c] cs IH]; intros H; [constructor|].
  change (total_ports ((n, c) :: cs)) with (b_np c + total_ports cs).
  rewrite seq_app, filter_app, Nat.add_0_l, (seq_shift_map (b_np c)), filter_map_comm.
  assert (E1 : filter (block_vec (@b_det X Dl) false ((n, c) :: cs)) (seq 0 (b_np c)) = filter (b_det c) (seq 0 (b_np c))).
  { apply filter_ext_In. intros a Ha. apply in_seq in Ha. cbn [block_vec]. destruct (Nat.ltb_spec a (b_np c)); [reflexivity|lia]. }
  assert (E2 : filter (fun a => block_vec (@b_det X Dl) false ((n, c) :: cs) (b_np c + a)) (seq 0 (total_ports cs)) = filter (block_vec (@b_det X Dl) false cs) (seq 0 (total_ports cs))).
  { apply filter_ext_In. intros a _. cbn [block_vec]. destruct (Nat.ltb_spec (b_np c + a) (b_np c)); [lia|]. f_equal. lia. }
  rewrite E1, E2.
  assert (IH' : Forall2 (fun p m => exists c', located ((n, c) :: cs) p m c' 0 /\ b_det c' 0 = true)
     (map (fun i => b_np c + i) (filter (block_vec (@b_det X Dl) false cs) (seq 0 (total_ports cs)))) (filter isdet (map fst cs))).
  { assert (H' : flat_detectors isdet cs) by (intros m c' Hin; apply H; now right).
    specialize (IH H'). clear E1 E2 H. induction IH as [|p m ps ms (c' & Hl & Hd) _ IHf]; [constructor|]. cbn. constructor; [|exact IHf].
    exists c'. split; [now apply located_cons|exact Hd]. }
  pose proof (H n c (or_introl eq_refl)) as Hc. cbn [map fst filter]. destruct (isdet n).
  - destruct Hc as [Hn Hd]. rewrite Hn in *. cbn [seq filter]. rewrite Hd. cbn [app]. constructor; [|exact IH'].
    exists c. split; [|exact Hd]. exists [], cs. cbn. repeat split; lia.
  - replace (filter (b_det c) (seq 0 (b_np c))) with (@nil nat); [exact IH'|]. symmetry.
    assert (Hs : forall l, (forall q, In q l -> b_det c q = false) -> filter (b_det c) l = []).
    { induction l as [|q l IHl]; intros Hl; [reflexivity|]. cbn. rewrite (Hl q (or_introl eq_refl)). apply IHl. intros; apply Hl; now right. }
    apply Hs. intros q Hq. apply in_seq in Hq. apply Hc. lia.
Qed.

Lemma parts_count isdet cs : num_detectors (parts_of isdet cs) = length (filter (block_vec (@b_det X Dl) false cs) (seq 0 (total_ports cs))).
Proof. rewrite count_blocks. unfold num_detectors, parts_of. rewrite map_map. reflexivity. Qed.
End Detectors.

Theorem C65_detector_names (X Dl : Type) (x0 : X) (d0 : Dl) (isdet : string -> bool) (cs : list (string * buf X Dl)) conns b :
  net_buf x0 d0 cs conns = Ok b -> flat_detectors isdet cs ->
  let names := detector_names (parts_of isdet cs) in
  length names = num_detectors (parts_of isdet cs) /\
  num_detectors (parts_of isdet cs) = length (filter (b_det b) (seq 0 (b_np b))) /\
  forall d p, nth_error (filter (b_det b) (seq 0 (b_np b))) d = Some p ->
    exists n c, nth_error names d = Some n /\ located cs p n c 0 /\ b_det c 0 = true.
Proof.
  intros Hb Hf names. destruct (net_buf_inv Hb) as (_ & _ & En & _ & Ed & _).
  pose proof (det_ports_blocks Hf) as F. unfold names. rewrite parts_names, parts_count, En, Ed.
  split; [symmetry; clear -F; induction F; cbn; congruence|]. split; [reflexivity|].
  clear -F. induction F as [|p n ps ns (c & H) _ IH]; intros d q; [destruct d; discriminate|].
  destruct d as [|d]; cbn; [intros [= <-]|apply IH]. destruct H. eauto.
Qed.

(** Every curve has a label, whatever the shape, unless the array has four dimensions after squeezing (or
    three against the wavelength). *)
Theorem C65_all_labelled_partial (V : Type) (f32 : V -> V) (digits : list Q -> res Z) (n : list part) (e : environ) (y : array V) fig :
  plot f32 digits n e y = Ok fig -> length (detector_names n) = num_detectors n -> length (pe_wl e) = pe_num_wl e ->
  let s := filter (fun k => negb (k =? 1)) (shape y) in
  length s = 2 \/ length s = 3 /\ hd 0 s = pe_num_t e ->
  (forall c, In c (curves fig) -> fst c <> None) /\ length (curves fig) = fold_right Nat.mul 1 (tl s).
Proof.
  intros H Hn Hwl s Hs.
  assert (K : forall cols labels, length labels = length cols -> length cols = fold_right Nat.mul 1 (tl s) ->
     (forall c : option string * (nat -> V), In c (draw cols labels) -> fst c <> None) /\ length (draw cols labels) = fold_right Nat.mul 1 (tl s)).
  { intros cols labels E E'. split; [|rewrite draw_length; exact E'].
    intros c Hin Hc. apply (in_map fst) in Hin. rewrite (draw_labels E), Hc in Hin. apply in_map_iff in Hin. destruct Hin as (x & ? & _). discriminate. }
  unfold plot in H. destruct (single (shape y)); [discriminate|].
  set (sq := squeeze (convert f32 y)) in *. assert (Es : shape sq = s) by reflexivity.
  destruct (shape sq) as [|s0 r] eqn:Er; [discriminate|]. 
  apply bind_Ok in H. destruct H as (time & Hm & H). apply bind_Ok in H. destruct H as (g & _ & H).
  apply bind_Ok in H. destruct H as (pre & _ & H). apply bind_Ok in H. destruct H as ([y' labels] & Hl & H).
  injection H as <-. cbn [curves fst snd].
  assert (Ht : length s = 3 -> time = true).
  { intros E. destruct Hs as [Hs|[_ Hs]]; [lia|]. rewrite <- Es in Hs. cbn in Hs. rewrite Hs, Nat.eqb_refl in Hm. congruence. }
  assert (K2 : forall y', length (columns (V := V) y') = fold_right Nat.mul 1 (tl (shape y'))).
  { intros z. unfold columns. now rewrite map_length, tuples_length. }
  assert (Elen : S (length r) = length s) by (rewrite <- Es; reflexivity).
  assert (Etl : tl s = r) by (rewrite <- Es; reflexivity).
  unfold labelled in Hl. rewrite Er in Hl. cbn [tl] in Hl.
  destruct r as [|a [|b [|]]]; cbn [length] in *; try lia.
  - enough (y' = sq /\ length labels = a) as [-> El].
    { apply K; rewrite K2, Er; cbn; [lia|]. rewrite Etl. cbn. lia. }
    destruct (time && (a =? pe_num_wl e)) eqn:E1; [|destruct (Nat.eqb_spec a (num_detectors n)) as [->|_]]; injection Hl as <- <-; split; auto.
    + apply andb_prop in E1. destruct E1 as [_ E1]. apply Nat.eqb_eq in E1. rewrite map_length. congruence.
    + now rewrite map_length, seq_length.
  - rewrite (Ht ltac:(lia)) in Hl. cbn [negb] in Hl.
    destruct (Nat.eqb_spec a (pe_num_wl e)) as [Ea|_]; [destruct (Nat.eqb_spec b (num_detectors n)) as [Eb|_]|destruct (Nat.eqb_spec a (num_detectors n)) as [Ea|_]]; cbn [andb] in Hl; try discriminate;
      injection Hl as <- <-; (apply K; rewrite K2; cbn [shape transpose map nth tl]; rewrite ?Er, ?Etl; cbn [nth fold_right tl]; [|lia]).
    + rewrite (@flat_length _ _ _ (length (detector_names n))) by (intros; apply map_length). rewrite map_length. nia.
    + rewrite (@flat_length _ _ _ (pe_num_wl e)) by (intros; rewrite !map_length; exact Hwl). rewrite seq_length. nia.
    + rewrite (@flat_length _ _ _ (length (detector_names n))) by (intros; apply map_length). rewrite seq_length. nia.
Qed.

(** Not every accepted call is labelled: detectors inside networks inside the network have no names. *)
Definition nested_part : list part := [{| c_name := "sub"; c_detector := false; c_num_det := 2 |}].
Definition ex_env : environ := {| pe_num_t := 3; pe_num_wl := 1; pe_t := [0; 1; 2]%Q; pe_wl := [155 # 100000000]%Q |}.
Definition ex_array (s : list nat) : array nat := {| shape := s; get := fun idx => fold_left (fun a i => 10 * a + i) idx 0 |}.

Theorem C65_nested_refuted : exists (n : list part) (e : environ) (y : array nat) fig,
  plot (fun v => v) (fun _ => Ok 0%Z) n e y = Ok fig /\ num_detectors n = 2 /\ shape y = [3; 1; 2; 1] /\
  length (curves fig) = 2 /\ map fst (curves fig) = [None; None].
Proof. exists nested_part, ex_env, (ex_array [3; 1; 2; 1]). eexists. split; [reflexivity|]. repeat split. Qed.

(** Three dimensions (time, detector, batch), with as many detectors as wavelengths: the detectors are
    labelled as wavelengths, and the batches as detectors. *)
Definition two_dets : list part :=
  [{| c_name := "a"; c_detector := true; c_num_det := 1 |}; {| c_name := "b"; c_detector := true; c_num_det := 1 |}].
Definition two_wl : environ := {| pe_num_t := 3; pe_num_wl := 2; pe_t := [0; 1; 2]%Q; pe_wl := [155 # 100000000; 160 # 100000000]%Q |}.

Theorem C65_ambiguous_refuted : exists (n : list part) (e : environ) (y : array nat) fig,
  plot (fun v => v) (fun _ => Ok 0%Z) n e y = Ok fig /\ shape y = [3; num_detectors n; 2] /\
  detector_names n = ["a"; "b"] /\
  map fst (curves fig) = [Some "1550nm | a"; Some "1550nm | b"; Some "1600nm | a"; Some "1600nm | b"] /\
  (* the second curve: detector 0, batch 1 *)
  exists c, nth_error (curves fig) 1 = Some (Some "1550nm | b", c) /\ forall t, c t = get y [t; 0; 1].
Proof.
  exists two_dets, two_wl, (ex_array [3; 2; 2]). eexists. split; [reflexivity|]. split; [reflexivity|].
  split; [reflexivity|]. split; [vm_compute; reflexivity|]. eexists. split; reflexivity.
Qed.

(** (time, wavelength, batch) of a single batch with other detectors, say: three dimensions of which the
    second is neither the number of wavelengths nor of detectors. *)
Theorem C65_unbound (V : Type) (f32 : V -> V) (digits : list Q -> res Z) (n : list part) (e : environ) (y : array V) T a b g :
  shape y = [T; a; b] -> T <> 1 -> a <> 1 -> b <> 1 -> pe_num_t e = T -> a <> pe_num_wl e -> a <> num_detectors n ->
  digits (pe_t e) = Ok g -> (-12 <= g <= 17)%Z ->
  plot f32 digits n e y = Err UnboundLocalError.
Proof.
  intros Hs T1 A1 B1 Ht Ha Hd Hg Hr. destruct (prefix_ok Hr) as [pre Hpre]. unfold plot.
  destruct (single (shape y)) eqn:Es; [apply not_single in Es; destruct Es as (? & ? & Es); congruence|].
  unfold labelled, squeeze, convert. cbn [shape]. rewrite Hs. cbn [filter].
  destruct (Nat.eqb_spec T 1); [contradiction|]. destruct (Nat.eqb_spec a 1); [contradiction|]. destruct (Nat.eqb_spec b 1); [contradiction|].
  cbn [negb tl]. rewrite Ht, Nat.eqb_refl. cbn [bind]. rewrite Hg. cbn [bind]. rewrite Hpre. cbn [bind of_option].
  destruct (Nat.eqb_spec a (pe_num_wl e)); [contradiction|]. destruct (Nat.eqb_spec a (num_detectors n)); [contradiction|]. reflexivity.
Qed.

(** Too many dimensions: more than four over time, more than three over wavelengths (sizes 1 not counted). *)
Theorem C65_dimensions (V : Type) (f32 : V -> V) (digits : list Q -> res Z) (n : list part) (e : environ) (y : array V) s0 r g :
  filter (fun d => negb (d =? 1)) (shape y) = s0 :: r -> (-12 <= g <= 17)%Z ->
  (pe_num_t e = s0 /\ digits (pe_t e) = Ok g /\ 4 <= length r \/ pe_num_t e <> s0 /\ pe_num_wl e = s0 /\ digits (pe_wl e) = Ok g /\ 3 <= length r) ->
  plot f32 digits n e y = Err RuntimeError.
Proof.
  intros Hs Hr H. destruct (prefix_ok Hr) as [pre Hpre]. unfold plot.
  destruct (single (shape y)) eqn:Es.
  { exfalso. apply not_single in Es. destruct Es as (a & b & Es). rewrite Es in Hs. cbn [filter Nat.eqb negb] in Hs.
    destruct (negb (a =? 1)), (negb (b =? 1)); cbn in Hs; try discriminate; injection Hs as <- <-; cbn in H; lia. }
  unfold labelled, squeeze, convert. cbn [shape]. rewrite Hs. cbn [tl]. destruct H as [(Ht & Hg & Hl)|(Ht & Hw & Hg & Hl)].
  - rewrite Ht, Nat.eqb_refl. cbn [bind]. rewrite Hg. cbn [bind]. rewrite Hpre. cbn [bind of_option].
    destruct r as [|a [|b [|c [|d r]]]]; cbn in Hl; try lia. reflexivity.
  - destruct (Nat.eqb_spec (pe_num_t e) s0); [contradiction|]. rewrite Hw, Nat.eqb_refl. cbn [bind]. rewrite Hg. cbn [bind]. rewrite Hpre. cbn [bind of_option].
    destruct r as [|a [|b [|c [|d r]]]]; cbn in Hl; try lia; reflexivity.
Qed.
Print Assumptions C65_dimensions.

(** Wavelengths closer than a nanometre are given the same label. *)
Theorem C65_same_label_refuted : exists (n : list part) (e : environ) (y : array nat) fig,
  plot (fun v => v) (fun _ => Ok 0%Z) n e y = Ok fig /\ matches n e y 3 2 1 1 /\
  NoDup (pe_wl e) /\ map fst (curves fig) = [Some "1550nm"; Some "1550nm"].
Proof.
  exists [{| c_name := "a"; c_detector := true; c_num_det := 1 |}],
    {| pe_num_t := 3; pe_num_wl := 2; pe_t := [0; 1; 2]%Q; pe_wl := [1550 # 1000000000; 15505 # 10000000000]%Q |}, (ex_array [3; 2; 1; 1]).
  eexists. split; [reflexivity|]. split; [|split].
  - constructor; try reflexivity. intros x [<-|[<-|[]]]; discriminate.
  - repeat constructor; cbn; intuition discriminate.
  - vm_compute. reflexivity.
Qed.

Example C65_ex : exists (n : list part) (e : environ) (y : array nat) fig,
  matches n e y 3 2 2 2 /\ plot (fun v => v) (fun _ => Ok 0%Z) n e y = Ok fig /\
  map fst (curves fig) = [Some "0 | 1550nm | a"; Some "0 | 1550nm | b"; Some "0 | 1600nm | a"; Some "0 | 1600nm | b";
                          Some "1 | 1550nm | a"; Some "1 | 1550nm | b"; Some "1 | 1600nm | a"; Some "1 | 1600nm | b"].
Proof.
  exists two_dets, two_wl, (ex_array [3; 2; 2; 2]). eexists. split; [|split; [reflexivity|vm_compute; reflexivity]].
  constructor; try reflexivity. intros x [<-|[<-|[]]]; discriminate.
Qed.
Example C65_dimensions_ex : filter (fun d => negb (d =? 1)) (shape (ex_array [3; 2; 2; 2; 1; 2])) = 3 :: [2; 2; 2; 2] /\ pe_num_t two_wl = 3
  /\ plot (fun v => v) (fun _ => Ok 0%Z) two_dets two_wl (ex_array [3; 2; 2; 2; 1; 2]) = Err RuntimeError.
Proof. repeat split; reflexivity. Qed.
Example C65_ex_wl : exists (n : list part) (e : environ) (y : array nat) fig,
  matches n e y 1 2 2 2 /\ plot (fun v => v) (fun _ => Ok 0%Z) n e y = Ok fig /\
  map fst (curves fig) = [Some "0 | a"; Some "0 | b"; Some "1 | a"; Some "1 | b"].
Proof.
  exists two_dets, {| pe_num_t := 1; pe_num_wl := 2; pe_t := [0]%Q; pe_wl := pe_wl two_wl |}, (ex_array [1; 2; 2; 2]). eexists. split; [|split; [reflexivity|vm_compute; reflexivity]].
  constructor; try reflexivity. intros x [<-|[<-|[]]]; discriminate.
Qed.

(** * C81: the axis *)
(** SI prefixes. *)
Inductive si : string -> Z -> Prop :=
| si_T : si "T" 12 | si_G : si "G" 9 | si_M : si "M" 6 | si_k : si "k" 3 | si_1 : si "" 0
| si_m : si "m" (-3) | si_u : si "$\mu$" (-6) | si_n : si "n" (-9) | si_p : si "p" (-12) | si_f : si "f" (-15).

Lemma prefixes_si f p : assoc Z.eqb f prefixes = Some p -> si p f.
Proof.
  cbn. repeat match goal with |- context [Z.eqb ?a ?b] => destruct (Z.eqb_spec a b) as [->|_]; [intros [= <-]; constructor|] end. discriminate.
Qed.

(** The numbers on the axis, in the unit of its label, are the times (or wavelengths). *)
Theorem C81_axis (V : Type) (f32 : V -> V) (digits : list Q -> res Z) (n : list part) (e : environ) (y : array V) fig :
  plot f32 digits n e y = Ok fig ->
  exists p k x, si p k /\
    (xlabel fig = ("Time [" ++ p ++ "s]")%string /\ x = pe_t e \/ xlabel fig = ("Wavelength [" ++ p ++ "m]")%string /\ x = pe_wl e) /\
    Forall2 (fun shown v => (shown * Qpower 10 k == v)%Q) (xs fig) x.
Proof.
  unfold plot. destruct (single (shape y)); [discriminate|]. destruct (shape (squeeze (convert f32 y))) as [|s0 r]; [discriminate|].
  intros H. apply bind_Ok in H. destruct H as (time & Hm & H). apply bind_Ok in H. destruct H as (g & _ & H).
  apply bind_Ok in H. destruct H as (p & Hp & H). apply bind_Ok in H. destruct H as (yl & _ & H). injection H as <-.
  apply of_option_Ok in Hp. exists p, (g / 3 * 3 - 3)%Z, (if time then pe_t e else pe_wl e). split; [now apply prefixes_si|].
  split; [destruct time; auto|]. cbn [xs]. induction (if time then pe_t e else pe_wl e) as [|v l IH]; [constructor|]. cbn [map]. constructor; [|exact IH].
  rewrite <- Qmult_assoc, <- Qpower_plus by discriminate. replace (- (g / 3 * 3 - 3) + (g / 3 * 3 - 3))%Z with 0%Z by lia. cbn [Qpower]. ring.
Qed.

(** Exactly the scales from 10^-12 to 10^17 have a prefix; on shorter times plot raises KeyError. *)
Theorem C81_range (V : Type) (f32 : V -> V) (digits : list Q -> res Z) (n : list part) (e : environ) (y : array V) T r g :
  filter (fun k => negb (k =? 1)) (shape y) = T :: r -> single (shape y) = false -> pe_num_t e = T -> digits (pe_t e) = Ok g ->
  (g < -12 \/ 17 < g)%Z -> plot f32 digits n e y = Err KeyError.
Proof.
  intros Hs H1 Ht Hg Hr. unfold plot. rewrite H1. unfold squeeze, convert. cbn [shape]. rewrite Hs, Ht, Nat.eqb_refl. cbn [bind].
  rewrite Hg. cbn [bind]. destruct (assoc Z.eqb (g / 3 * 3 - 3)%Z prefixes) as [p|] eqn:E; [|reflexivity]. exfalso.
  apply prefixes_si in E. assert (Hd : (g / 3 <= -5 \/ 6 <= g / 3)%Z).
  { destruct Hr; [left|right]. - assert (g / 3 < -4)%Z; [apply Z.div_lt_upper_bound; lia|lia]. - apply Z.div_le_lower_bound; lia. }
  remember (g / 3 * 3 - 3)%Z as k. destruct E; lia.
Qed.

Theorem C81_short_refuted : exists (n : list part) (e : environ) (y : array nat),
  matches n e y 3 1 2 1 /\ plot (fun v => v) (fun _ => Ok (-13)%Z) n e y = Err KeyError.
Proof.
  exists two_dets, ex_env, (ex_array [3; 1; 2; 1]). split; [|reflexivity].
  constructor; try reflexivity. intros x [<-|[]]; discriminate.
Qed.

(** * C79: [_Loss.plot] *)
Local Open Scope Z_scope.
(** It draws the tensor behind the warm-up and latency samples, in every listed unit but one. *)
Theorem C79_units_partial (x : NNModel.raw) p latency warmup bitrate samplerate unit k l w :
  NNModel.four x = Ok p -> In (unit, k) [("s", 0); ("ms", 3); ("ns", 9); ("ps", 12); ("fs", 15)] ->
  NNModel.samples_of latency samplerate bitrate = Ok l ->
  NNModel.samples_of (inject_Z (NNModel.rint (inject_Z warmup))) samplerate bitrate = Ok w -> 0 <= w -> 0 <= w + l ->
  exists fig, loss_plot x latency warmup bitrate samplerate unit = Ok fig /\
    l_xlabel fig = ("t [" ++ unit ++ "]")%string /\
    (forall i, (i < NNModel.t_len p - Z.to_nat (w + l))%nat ->
       nth_error (l_xs fig) i = Some (inject_Z (Z.of_nat i) / samplerate * Qpower 10 k)%Q) /\
    length (l_xs fig) = (NNModel.t_len p - Z.to_nat (w + l))%nat /\
    Forall2 (fun c q => forall i, (i < length (l_xs fig))%nat -> c i = NNModel.t_val p (Z.to_nat (w + l) + i) q) (l_curves fig) (NNModel.places p).
Proof.
  intros Hb Hu Hl Hw W0 WL. unfold loss_plot, NNModel.broadcast. rewrite Hb. cbn [bind].
  unfold NNModel.bsize. rewrite !Nat.eqb_refl. cbn [bind fst]. rewrite Hl. cbn [bind]. rewrite Hw. cbn [bind].
  destruct (Z.ltb_spec w 0); [lia|]. destruct (Z.ltb_spec (w + l) 0); [lia|].
  assert (E : assoc String.eqb unit units = Some k /\ tex_unit unit = unit).
  { cbn in Hu. decompose [or] Hu; try tauto; match goal with H : (_, _) = (_, _) |- _ => injection H as <- <- end; split; reflexivity. }
  destruct E as [E1 E2]. rewrite E1. cbv zeta. rewrite E2, E1. cbn [bind of_option]. eexists. split; [reflexivity|]. cbn [l_xlabel l_xs l_curves].
  split; [reflexivity|]. cbn [NNModel.t_len NNModel.drop NNModel.expand].
  assert (El : forall (f : nat -> Q) m, length (map f (seq 0 m)) = m) by (intros; now rewrite map_length, seq_length).
  split; [|split].
  - intros i Li. rewrite nth_error_map. rewrite (nth_error_nth' _ O) by (now rewrite seq_length). rewrite seq_nth by exact Li. reflexivity.
  - apply El.
  - rewrite El. change (NNModel.places (NNModel.drop _ _)) with (NNModel.places p).
    assert (Hp : forall q, In q (NNModel.places p) -> (fst (fst q) < NNModel.t_w p /\ snd (fst q) < NNModel.t_d p /\ snd q < NNModel.t_b p)%nat).
    { intros [[a b] c] Hq. apply in_prod_iff in Hq. destruct Hq as [Hq H3]. apply in_prod_iff in Hq. destruct Hq as [H1 H2]. apply in_seq in H1, H2, H3. cbn. lia. }
    induction (NNModel.places p) as [|q ps IH]; [constructor|]. cbn [map]. constructor; [|apply IH; intros; apply Hp; now right].
    intros i Li. destruct (Hp q (or_introl eq_refl)) as (Q1 & Q2 & Q3). cbn. destruct q as [[a b] c]. cbn [fst snd] in *.
    assert (Hx : forall m j, (j < m)%nat -> NNModel.bindex m j = j) by (intros m j; unfold NNModel.bindex; destruct (Nat.eqb_spec m 1); lia).
    now rewrite !Hx by lia.
Qed.

(** Negative warm-ups, latencies before the start and units that are not listed are refused, microseconds raise [KeyError]. *)
Theorem C79_refused (x : NNModel.raw) p latency warmup bitrate samplerate unit l w :
  NNModel.four x = Ok p -> NNModel.samples_of latency samplerate bitrate = Ok l ->
  NNModel.samples_of (inject_Z (NNModel.rint (inject_Z warmup))) samplerate bitrate = Ok w ->
  (w < 0 \/ w + l < 0 \/ ~ In unit ["s"; "ms"; "us"; "ns"; "ps"; "fs"] -> loss_plot x latency warmup bitrate samplerate unit = Err ValueError)
  /\ (0 <= w -> 0 <= w + l -> loss_plot x latency warmup bitrate samplerate "us" = Err KeyError).
Proof.
  intros Hb Hl Hw. unfold loss_plot, NNModel.broadcast. rewrite Hb. cbn [bind].
  unfold NNModel.bsize. rewrite !Nat.eqb_refl. cbn [bind fst]. rewrite Hl. cbn [bind]. rewrite Hw. cbn [bind].
  split.
  - intros H. destruct (Z.ltb_spec w 0) as [L|L]; [reflexivity|]. destruct (Z.ltb_spec (w + l) 0) as [L'|L']; [reflexivity|].
    assert (N : ~ In unit ["s"; "ms"; "us"; "ns"; "ps"; "fs"]) by (decompose [or] H; [lia|lia|assumption]).
    assert (E : assoc String.eqb unit units = None).
    { cbn [units assoc]. repeat (match goal with |- context [String.eqb ?a ?b] => destruct (String.eqb_spec a b) as [->|_] end; [exfalso; apply N; cbn; tauto|]). reflexivity. }
    rewrite E. reflexivity.
  - intros W0 WL. destruct (Z.ltb_spec w 0); [lia|]. destruct (Z.ltb_spec (w + l) 0); [lia|]. reflexivity.
Qed.

(** Microseconds are listed, but always fail. *)
Theorem C79_microseconds_refuted : In ("us", 6) units /\
  forall x latency warmup bitrate samplerate fig, loss_plot x latency warmup bitrate samplerate "us" <> Ok fig.
Proof.
  split; [cbn; auto|]. intros x la wa bi sa fig H. unfold loss_plot in H.
  apply bind_Ok in H. destruct H as (pp & _ & H). apply bind_Ok in H. destruct H as (l & _ & H). apply bind_Ok in H. destruct H as (w & _ & H).
  destruct (w <? 0); [discriminate|]. destruct (w + l <? 0); discriminate.
Qed.

Example C79_ex : exists x fig, loss_plot x 0 1 1 2 "ns" = Ok fig /\ l_xlabel fig = "t [ns]" /\ length (l_xs fig) = 3%nat /\ length (l_curves fig) = 2%nat.
Proof. exists (NNModel.Dim2 5 2 (fun i b => Rdefinitions.IZR (Z.of_nat (i + b)))). eexists. split; [reflexivity|]. repeat split. Qed.

(** * C80: graphs *)
Local Open Scope nat_scope.
Lemma add_node_In ns n x : In x (add_node ns n) <-> In x ns \/ x = n.
Proof.
  unfold add_node. destruct (existsb (String.eqb n) ns) eqn:E.
  - apply existsb_exists in E. destruct E as (y & Hy & E). apply String.eqb_eq in E. subst y. intuition congruence.
  - rewrite in_app_iff. cbn. intuition congruence.
Qed.
Lemma add_node_NoDup ns n : NoDup ns -> NoDup (add_node ns n).
Proof.
  intros H. unfold add_node. destruct (existsb (String.eqb n) ns) eqn:E; [exact H|].
  apply (Permutation_NoDup (Permutation_cons_append ns n)). constructor; [|exact H]. intros Hi.
  enough (existsb (String.eqb n) ns = true) by congruence. apply existsb_exists. exists n. split; [exact Hi|apply String.eqb_refl].
Qed.
Lemma add_node_old ns n : In n ns -> add_node ns n = ns.
Proof.
  intros H. unfold add_node. replace (existsb (String.eqb n) ns) with true; [reflexivity|]. symmetry. apply existsb_exists.
  exists n. split; [exact H|apply String.eqb_refl].
Qed.
Lemma add_node_more ns n : exists r, add_node ns n = ns ++ r.
Proof. unfold add_node. destruct (existsb _ ns); [exists []; symmetry; apply app_nil_r|eauto]. Qed.
Lemma add_nodes_distinct l ns : NoDup (ns ++ l) -> fold_left add_node l ns = ns ++ l.
Proof.
  revert ns. induction l as [|a l IH]; intros ns H; [symmetry; apply app_nil_r|]. cbn [fold_left].
  assert (E : add_node ns a = ns ++ [a]).
  { unfold add_node. destruct (existsb (String.eqb a) ns) eqn:E; [|reflexivity]. apply existsb_exists in E. destruct E as (x & Hx & E).
    apply String.eqb_eq in E. subst x. apply NoDup_remove_2 in H. exfalso. apply H, in_or_app. auto. }
  rewrite E, IH, <- app_assoc; [reflexivity|]. rewrite <- app_assoc. exact H.
Qed.

Section Graph.
Variables (X Dl : Type) (x0 : X) (d0 : Dl) (cs : list (string * buf X Dl)).

(** The edge drawn for a connection: between two components, or from a component to the text of the
    external port. *)
Definition edge_of (conn : string) (ed : string * string) : Prop :=
  (exists n1 s1 n2 s2, split_colon conn = [n1; s1; n2; s2] /\ ed = (n1, n2) /\ In n1 (map fst cs) /\ In n2 (map fst cs)) \/
  (exists n s t, split_colon conn = [n; s; t] /\ ed = (n, t) /\ In n (map fst cs)).

Lemma names_port_In n k p : names_port cs n k p -> In n (map fst cs).
Proof. intros (pre & b & post & q & -> & _). rewrite map_app. apply in_or_app. right. now left. Qed.

Lemma conn_edge conns b conn : NoDup (map fst cs) -> net_buf x0 d0 cs conns = Ok b -> In conn conns -> exists ed, edge_of conn ed.
Proof.
  intros ND Hb Hin. destruct (net_buf_inv Hb) as (Ho & _). unfold net_order in Ho. apply bind_Ok in Ho. destruct Ho as (d & Ho & _).
  destruct (ext_list_exists ND Ho) as (es & Hes & _).
  assert (C : length (split_colon conn) = 4 \/ exists p z, numbers cs conn p z).
  { clear -Hes Hin. induction Hes as [|c l p z es Hn _ IH|c l es Hl _ IH]; [destruct Hin| |].
    - destruct Hin as [<-|Hin]; [right; eauto|auto].
    - destruct Hin as [<-|Hin]; [auto|auto]. }
  destruct C as [C|(p & z & n & s & k & t & E & _ & _ & Hp)].
  - destruct (all_parse Hb Hin) as [o Hp]. destruct o as [[i j]|].
    + apply parse_Some in Hp. destruct Hp as (n1 & s1 & q1 & n2 & s2 & q2 & E & _ & _ & H1 & H2).
      exists (n1, n2). left. exists n1, s1, n2, s2. repeat split; auto; eapply names_port_In; eassumption.
    + unfold parse_connection in Hp. destruct (split_colon conn) as [|? [|? [|? [|? [|? ?]]]]]; try discriminate C.
      exfalso. inv_res. discriminate.
  - exists (n, t). right. exists n, s, t. repeat split; auto. eapply names_port_In; eassumption.
Qed.

Lemma graph_fold conns : (forall conn, In conn conns -> exists ed, edge_of conn ed) -> forall ns es,
  incl (map fst cs) ns -> NoDup ns ->
  exists ns' es', foldM (fun g c => match every_other (split_colon c) with
                    | [u; v] => Ok (add_node (add_node (fst g) u) v, snd g ++ [(u, v)])
                    | _ => Err RuntimeError
                    end) (ns, es) conns = Ok (ns', es ++ es') /\ Forall2 edge_of conns es' /\ NoDup ns' /\
    (exists r, ns' = ns ++ r) /\
    forall x, In x ns' <-> In x ns \/ exists conn n s, In conn conns /\ split_colon conn = [n; s; x].
Proof.
  induction conns as [|c conns IH]; intros H ns es Hi ND.
  - exists ns, []. cbn. rewrite app_nil_r. split; [reflexivity|]. split; [constructor|]. split; [exact ND|]. split; [exists []; symmetry; apply app_nil_r|].
    intros x. split; [auto|]. intros [Hx|(? & ? & ? & [] & _)]. exact Hx.
  - destruct (H c (or_introl eq_refl)) as [ed He].
    assert (K : exists u v, every_other (split_colon c) = [u; v] /\ ed = (u, v) /\ In u ns /\
              (In v ns /\ length (split_colon c) = 4 \/ exists s, split_colon c = [u; s; v])).
    { destruct He as [(n1 & s1 & n2 & s2 & E & Ee & I1 & I2)|(n & s & t & E & Ee & I1)]; rewrite E; cbn [every_other]; do 2 eexists;
        (split; [reflexivity|]); (split; [exact Ee|]); (split; [apply Hi; assumption|]); [left; split; [now apply Hi|reflexivity]|right; eauto]. }
    destruct K as (u & v & E & Ee & Iu & Hv). cbn [foldM]. rewrite E. cbn [bind fst snd]. rewrite (add_node_old Iu).
    destruct (IH (fun c' Hc => H c' (or_intror Hc)) (add_node ns v) (es ++ [(u, v)])) as (ns' & es' & R & F & ND' & (r & Er) & Hx).
    { intros x Hx. apply add_node_In. left. now apply Hi. } { now apply add_node_NoDup. }
    exists ns', ((u, v) :: es'). rewrite R, <- app_assoc. split; [reflexivity|]. split; [constructor; [now rewrite <- Ee|exact F]|].
    split; [exact ND'|]. split; [destruct (add_node_more ns v) as (r' & Er'); exists (r' ++ r); now rewrite Er, Er', app_assoc|].
    intros x. rewrite Hx, add_node_In. split.
    + intros [[Hin| ->]|(conn & n & s & Hc & Hs)]; [auto| |right; exists conn, n, s; split; [now right|exact Hs]].
      destruct Hv as [[Hv _]|[s Hs]]; [auto|]. right. exists c, u, s. split; [now left|exact Hs].
    + intros [Hin|(conn & n & s & [<-|Hc] & Hs)]; [auto| |right; eauto].
      destruct Hv as [[_ Hv]|[s' Hs']]; [rewrite Hs in Hv; discriminate|]. left. right. congruence.
Qed.
End Graph.

(** The graph of a network has the components as its first nodes, one further node for every external
    port text, and one edge for every connection, in order. *)
Theorem C80_graph_partial (X Dl : Type) (x0 : X) (d0 : Dl) (cs : list (string * buf X Dl)) conns b :
  NoDup (map fst cs) -> net_buf x0 d0 cs conns = Ok b ->
  exists nodes edges, graph (map fst cs) conns = Ok (nodes, edges) /\
    Forall2 (edge_of cs) conns edges /\ NoDup nodes /\ (exists r, nodes = map fst cs ++ r) /\
    forall x, In x nodes <-> In x (map fst cs) \/ exists conn n s, In conn conns /\ split_colon conn = [n; s; x].
Proof.
  intros ND Hb. unfold graph. rewrite add_nodes_distinct by exact ND. cbn [app].
  destruct (@graph_fold X Dl cs conns (fun conn => @conn_edge X Dl x0 d0 cs conns b conn ND Hb) (map fst cs) [] (fun _ h => h) ND) as (ns & es & H).
  exists ns, es. exact H.
Qed.

(** When all ports are wired inside, the nodes are the components. *)
Theorem C80_closed (X Dl : Type) (x0 : X) (d0 : Dl) (cs : list (string * buf X Dl)) conns b :
  NoDup (map fst cs) -> net_buf x0 d0 cs conns = Ok b -> (forall conn, In conn conns -> length (split_colon conn) = 4) ->
  exists edges, graph (map fst cs) conns = Ok (map fst cs, edges) /\ Forall2 (edge_of cs) conns edges.
Proof.
  intros ND Hb H4. destruct (C80_graph_partial ND Hb) as (nodes & edges & Hg & Hf & Hn & (r & Er) & Hx).
  destruct r as [ |a r]; [rewrite app_nil_r in Er; subst nodes; eauto| ]. exfalso.
  assert (Ha : In a nodes) by (rewrite Er; apply in_or_app; right; now left).
  apply Hx in Ha. destruct Ha as [Ha|(conn & n & s & Hc & Hs)].
  - rewrite Er in Hn. apply NoDup_remove_2 in Hn. apply Hn, in_or_app. now left.
  - specialize (H4 _ Hc). rewrite Hs in H4. discriminate.
Qed.

Definition wg : buf nat nat :=
  {| b_np := 2; b_C := fun _ _ => false; b_src := fun _ => false; b_det := fun _ => false; b_act := fun _ => false;
     b_order := [0; 1]; b_S := fun _ _ => 0; b_del := fun _ => 0 |}.

(** With external ports there are nodes that are no components. *)
Theorem C80_external_refuted : exists (cs : list (string * buf nat nat)) conns b nodes edges,
  net_buf 0 0 cs conns = Ok b /\ graph (map fst cs) conns = Ok (nodes, edges) /\
  map fst cs = ["a"; "b"] /\ nodes = ["a"; "b"; "0"; "1"] /\ edges = [("a", "0"); ("a", "b"); ("b", "1")].
Proof. exists [("a", wg); ("b", wg)], ["a:0:0"; "a:1:b:0"; "b:1:1"]. do 3 eexists. split; [vm_compute; reflexivity|]. repeat split. Qed.

Example C80_ex : exists (cs : list (string * buf nat nat)) conns b, NoDup (map fst cs) /\ net_buf 0 0 cs conns = Ok b /\
  (forall conn, In conn conns -> length (split_colon conn) = 4) /\
  graph (map fst cs) conns = Ok (["a"; "b"], [("a", "b"); ("b", "a")]).
Proof.
  exists [("a", wg); ("b", wg)], ["a:1:b:0"; "b:1:a:0"]. eexists. split; [repeat constructor; cbn; intuition discriminate|].
  split; [vm_compute; reflexivity|]. split; [intros conn [<-|[<-|[]]]; reflexivity|reflexivity].
Qed.

Print Assumptions C65_time_partial.
Print Assumptions C65_wavelength_partial.
Print Assumptions C65_detector_names.
Print Assumptions C65_all_labelled_partial.
Print Assumptions C65_unbound.
Print Assumptions C65_ambiguous_refuted.
Print Assumptions C81_axis.
Print Assumptions C81_range.
Print Assumptions C79_units_partial.
Print Assumptions C79_refused.
Print Assumptions C79_microseconds_refuted.
Print Assumptions C80_graph_partial.
Print Assumptions C80_closed.
