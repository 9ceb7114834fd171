(** Properties of source tensors: C32, C33, C34. *)
From Verif Require Import Base SimModel SourceModel SourceSpec SourceProofs.
Set Implicit Arguments.
Unset Strict Implicit.
Local Open Scope nat_scope.

Section Props.
Variable K : Type.
Variable k0 : K.

(** ** C32: the expanded source *)
(** Sources that fit ([fits], [expected] in SourceProofs.v: each dimension has size one or the right
    size; time may be longer) are accepted and expanded by repeating dimensions of size one, with a
    zero imaginary part if there is none, and zero for nodes that are not sources. *)
Theorem C32_expanded : forall e sh (v : list nat -> K), distinct sh -> fits e sh ->
  1 <= num_t e -> 1 <= num_wl e -> num_sources e <= num_mc e ->
  exists x, handle_source k0 e (named sh v) = Ok x /\
    b_c x = 2 /\ b_t x = num_t e /\ b_w x = num_wl e /\ b_s x = num_mc e /\ b_b x = width sh DB /\
    forall c t w m b, c < 2 -> t < num_t e -> w < num_wl e -> m < num_mc e -> b < width sh DB ->
      b_val x c t w m b = expected k0 e sh v c t w m b.
Proof. exact (accepted k0). Qed.

(** No others are accepted. *)
Theorem C32_only : forall e sh (v : list nat -> K) x, distinct sh ->
  (forall d, width sh d <> 0) -> handle_source k0 e (named sh v) = Ok x -> fits e sh.
Proof. exact (@accepted_only K k0). Qed.

(** Unnamed sources mean (t, w, s, b), or (c, t, w, s, b); a number has no dimensions; a complex
    numpy array is a real one with real and imaginary part first.  All others are refused. *)
Theorem C32_unnamed : forall e,
  (forall v, handle_source k0 e (Tensor [] v) = handle_source k0 e (named [] v)) /\
  (forall t w s b v,
     handle_source k0 e (Tensor [(Unnamed, t); (Unnamed, w); (Unnamed, s); (Unnamed, b)] v) =
     handle_source k0 e (named [(DC, 1); (DT, t); (DW, w); (DS, s); (DB, b)] (fun i => v (tl i)))) /\
  (forall c t w s b v, c <= 2 ->
     handle_source k0 e (Tensor [(Unnamed, c); (Unnamed, t); (Unnamed, w); (Unnamed, s); (Unnamed, b)] v) =
     handle_source k0 e (named [(DC, c); (DT, t); (DW, w); (DS, s); (DB, b)] v)) /\
  (forall t w s b re im,
     handle_source k0 e (ComplexArray [t; w; s; b] re im) =
     handle_source k0 e (named [(DC, 2); (DT, t); (DW, w); (DS, s); (DB, b)]
       (fun i => match i with [] => k0 | c :: r => if c =? 0 then re r else im r end))) /\
  (forall sh v, (forall p, In p sh -> fst p = Unnamed) ->
     length sh <> 0 -> length sh <> 4 -> length sh <> 5 ->
     handle_source k0 e (Tensor sh v) = Err ValueError) /\
  (forall sh v p q, In p sh -> In q sh -> fst p = Unnamed -> fst q <> Unnamed ->
     handle_source k0 e (Tensor sh v) = Err ValueError).
Proof.
  intros e. split; [exact (number k0 e)|]. split; [exact (unnamed4 k0 e)|].
  split; [exact (@unnamed5 K k0 e)|]. split; [exact (complex4 k0 e)|].
  split; [exact (@unnamed_refused K k0 e)|exact (@mixed_refused K k0 e)].
Qed.

(** Names other than the five are refused. *)
Theorem C32_other_name : forall e sh (v : list nat -> K) n, In (Other, n) sh -> (forall p, In p sh -> fst p <> Unnamed) ->
  handle_source k0 e (Tensor sh v) = Err ValueError.
Proof.
  intros e sh v n H U. unfold handle_source, to_tensor.
  assert (N : forallb is_named sh = true).
  { apply forallb_forall. intros [l m] I. specialize (U _ I). destruct l; [contradiction|reflexivity..]. }
  unfold with_names. rewrite N.
  assert (A : known_names sh = Err ValueError).
  { clear - H. induction sh as [|[l m] sh IH]; [destruct H|]. destruct l; try reflexivity.
    destruct H as [E|H]; [discriminate|]. cbn [known_names]. rewrite (IH H). reflexivity. }
  cbn [bind]. rewrite A. destruct (5 <? length sh); reflexivity.
Qed.

(** The simulation model's source at every node (SimModel.v) is the expanded source. *)
Theorem C32_simulation : forall e sh (v : list nat -> K) x, distinct sh -> fits e sh ->
  1 <= num_t e -> 1 <= num_wl e -> num_sources e <= num_mc e ->
  handle_source k0 e (named sh v) = Ok x ->
  let given t : field K := (fun w s b => expected k0 e sh v 0 t w s b,
                            fun w s b => expected k0 e sh v 1 t w s b) in
  forall t w m b, t < num_t e -> w < num_wl e -> m < num_mc e -> b < width sh DB ->
    fst (node_source k0 (num_sources e) given t) w m b = b_val x 0 t w m b /\
    snd (node_source k0 (num_sources e) given t) w m b = b_val x 1 t w m b.
Proof.
  intros e sh v x D F NT NW NS H given t w m b Ht Hw Hm Hb.
  destruct (C32_expanded v D F NT NW NS) as (y & Hy & _ & _ & _ & _ & _ & V).
  rewrite H in Hy. injection Hy as <-.
  rewrite !V by (try exact Hb; lia). unfold given, node_source, expected. cbn [fst snd].
  destruct (m <? num_sources e); auto.
Qed.

(** A wrong number of wavelengths or of source ports is refused. *)
Theorem C32_refused : forall e sh (v : list nat -> K), distinct sh ->
  (1 < width sh DW /\ width sh DW <> num_wl e) \/
  (1 < width sh DS /\ width sh DS <> num_sources e) ->
  forall x, handle_source k0 e (named sh v) <> Ok x.
Proof. exact (@wrong_size K k0). Qed.

(** ** C33: the order of named dimensions does not matter *)
Theorem C33_order : forall e sh sh' (v v' : list nat -> K), distinct sh -> distinct sh' ->
  same_values sh sh' v v' ->
  same_res (handle_source k0 e (named sh v)) (handle_source k0 e (named sh' v')).
Proof. exact (@order_irrelevant K k0). Qed.

(** ** C34: sources of a different length *)
(** Longer: cut. *)
Theorem C34_longer : forall e sh (v : list nat -> K), distinct sh -> fits e sh ->
  1 <= num_t e -> 1 <= num_wl e -> num_sources e <= num_mc e -> num_t e < width sh DT ->
  (width sh DC = 2) ->
  exists x, handle_source k0 e (named sh v) = Ok x /\ b_t x = num_t e /\
    forall c t w m b, c < 2 -> t < num_t e -> w < num_wl e -> m < num_sources e -> b < width sh DB ->
      b_val x c t w m b = read sh v (repeated sh (at_pos c t w m b)).
Proof.
  intros e sh v D F NT NW NS L C.
  destruct (C32_expanded v D F NT NW NS) as (x & H & _ & T & _ & _ & _ & V).
  exists x. split; [exact H|]. split; [exact T|]. intros c t w m b Hc Ht Hw Hm Hb.
  rewrite V by (try lia; exact Hb). unfold expected.
  destruct (Nat.ltb_spec m (num_sources e)); [|lia]. rewrite C. cbn [Nat.eqb andb].
  destruct (Nat.leb_spec (width sh DT) t); [lia|]. rewrite andb_false_r. reflexivity.
Qed.

(** Shorter, of length two: completed with zeros. *)
Theorem C34_two_partial : forall e sh (v : list nat -> K), distinct sh -> fits e sh ->
  1 <= num_t e -> 1 <= num_wl e -> num_sources e <= num_mc e -> width sh DT = 2 ->
  exists x, handle_source k0 e (named sh v) = Ok x /\ b_t x = num_t e /\
    forall c t w m b, c < 2 -> 2 <= t < num_t e -> w < num_wl e -> m < num_mc e -> b < width sh DB ->
      b_val x c t w m b = k0.
Proof.
  intros e sh v D F NT NW NS T2.
  destruct (C32_expanded v D F NT NW NS) as (x & H & _ & T & _ & _ & _ & V).
  exists x. split; [exact H|]. split; [exact T|]. intros c t w m b Hc Ht Hw Hm Hb.
  rewrite V by (try lia; exact Hb). unfold expected.
  destruct (m <? num_sources e); [|reflexivity]. rewrite T2.
  destruct (Nat.leb_spec 2 t); [|lia]. 
  destruct ((width sh DC =? 1) && (1 <=? c)); reflexivity.
Qed.

(** Every other shorter source fails. *)
Theorem C34_shorter_refuted : forall e sh (v : list nat -> K), distinct sh ->
  (width sh DC = 1 \/ width sh DC = 2) -> 2 < width sh DT -> width sh DT < num_t e ->
  (width sh DW = 1 \/ width sh DW = num_wl e) -> (width sh DS = 1 \/ width sh DS = num_sources e) ->
  handle_source k0 e (named sh v) = Err RuntimeError.
Proof. exact (@too_short K k0). Qed.

End Props.

(** Examples: four time steps, two wavelengths, two sources, five nodes. *)
Definition ex_dims := {| num_t := 4; num_wl := 2; num_sources := 2; num_mc := 5 |}.
Definition ex_val (l : list nat) : nat := match l with [a; b] => 10 * a + b + 1 | _ => 0 end.

Example C32_example :
  distinct [(DS, 2); (DT, 6)] /\ fits ex_dims [(DS, 2); (DT, 6)] /\
  exists x, handle_source 0 ex_dims (named [(DS, 2); (DT, 6)] ex_val) = Ok x /\
    b_val x 0 3 1 1 0 = 14 /\ b_val x 1 3 1 1 0 = 0 /\ b_val x 0 3 1 2 0 = 0.
Proof.
  split; [repeat constructor; cbn; intuition discriminate|].
  split; [unfold fits; cbn; lia|]. eexists. split; [reflexivity|]. cbn. auto.
Qed.
Example C33_example :
  distinct [(DS, 2); (DT, 6)] /\ distinct [(DT, 6); (DS, 2)] /\
  same_values [(DS, 2); (DT, 6)] [(DT, 6); (DS, 2)] ex_val (fun l => ex_val (rev l)).
Proof.
  repeat split; try (repeat constructor; cbn; intuition discriminate). intros []; reflexivity.
Qed.
Example C34_example : fits ex_dims [(DC, 2); (DT, 6)] /\ fits ex_dims [(DT, 2)].
Proof. split; unfold fits; cbn; lia. Qed.
(** Three values for four time steps. *)
Theorem C34_refuted : exists e sh (v : list nat -> nat),
  distinct sh /\ width sh DT < num_t e /\ handle_source 0 e (named sh v) = Err RuntimeError.
Proof.
  exists ex_dims, [(DT, 3)], (fun _ => 7). split; [repeat constructor; cbn; intuition discriminate|].
  split; [cbn; lia|reflexivity].
Qed.

Print Assumptions C32_expanded.
Print Assumptions C32_only.
Print Assumptions C32_unnamed.
Print Assumptions C32_other_name.
Print Assumptions C32_simulation.
Print Assumptions C32_refused.
Print Assumptions C33_order.
Print Assumptions C34_longer.
Print Assumptions C34_two_partial.
Print Assumptions C34_shorter_refuted.
Print Assumptions C34_refuted.
