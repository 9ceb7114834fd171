(** Circuits whose scattering matrices depend on a parameter: building and evaluating commute. *)
From Coq Require Import FunctionalExtensionality.
From Verif Require Import Base PyStr NetModel NetProofs.
Set Implicit Arguments.
Unset Strict Implicit.
Local Open Scope nat_scope.
Local Open Scope list_scope.

Section Map.
Variables (X Y D : Type) (g : X -> Y) (x0 : X) (d0 : D).

(** Apply [g] to every entry of the scattering matrix. *)
Definition fmap (b : buf X D) : buf Y D :=
  {| b_np := b_np b; b_C := b_C b; b_src := b_src b; b_det := b_det b; b_act := b_act b; b_order := b_order b;
     b_S := fun i j => g (b_S b i j); b_del := b_del b |}.
Definition cmap (cs : comps X D) : comps Y D := map (fun e => (fst e, fmap (snd e))) cs.
Definition rmap A B (f : A -> B) (r : res A) : res B := match r with Ok a => Ok (f a) | Err e => Err e end.

Fixpoint tmap (c : comp X D) : comp Y D :=
  match c with
  | Leaf b => Leaf (fmap b)
  | Net cs conns => Net (map (fun e => (fst e, tmap (snd e))) cs) conns
  end.

Lemma rmap_bind A B C' (f : B -> C') (r : res A) (k : A -> res B) : rmap f (bind r k) = bind r (fun x => rmap f (k x)).
Proof. destruct r; reflexivity. Qed.
Lemma bind_rmap A B C' (f : A -> B) (r : res A) (k : B -> res C') : bind (rmap f r) k = bind r (fun x => k (f x)).
Proof. destruct r; reflexivity. Qed.
Lemma bind_ext A B (r : res A) (k k' : A -> res B) : (forall x, k x = k' x) -> bind r k = bind r k'.
Proof. intros H. destruct r; cbn; auto. Qed.

Lemma assoc_cmap n cs : assoc String.eqb n (cmap cs) = option_map fmap (assoc String.eqb n cs).
Proof.
  induction cs as [|[m b] r IH]; [reflexivity|]. cbn [cmap map assoc fst snd]. fold (cmap r).
  destruct (String.eqb n m); [reflexivity|]. exact IH.
Qed.

Lemma select_cmap mods names : select_comps (cmap mods) names = rmap cmap (select_comps mods names).
Proof.
  unfold select_comps. induction names as [|n r IH]; [reflexivity|]. cbn [mapM]. rewrite assoc_cmap, IH.
  destruct (assoc String.eqb n mods); cbn [option_map of_option bind rmap]; [|reflexivity].
  rewrite rmap_bind, bind_rmap. reflexivity.
Qed.

Lemma total_cmap cs : total_ports (cmap cs) = total_ports cs.
Proof. unfold total_ports, cmap. rewrite map_map. reflexivity. Qed.

Lemma block_vec_cmap A (sel : buf X D -> nat -> A) (sel' : buf Y D -> nat -> A) d cs i :
  (forall b i, sel' (fmap b) i = sel b i) -> block_vec sel' d (cmap cs) i = block_vec sel d cs i.
Proof.
  intros H. revert i. induction cs as [|[m b] r IH]; intros i; [reflexivity|]. cbn [cmap map block_vec fst snd]. fold (cmap r).
  rewrite IH, H. reflexivity.
Qed.

Lemma block_mat_cmap A (sel : buf X D -> nat -> nat -> A) (sel' : buf Y D -> nat -> nat -> A) d cs i j :
  (forall b i j, sel' (fmap b) i j = sel b i j) -> block_mat sel' d (cmap cs) i j = block_mat sel d cs i j.
Proof.
  intros H. revert i j. induction cs as [|[m b] r IH]; intros i j; [reflexivity|]. cbn [cmap map block_mat fst snd]. fold (cmap r).
  rewrite IH, H. reflexivity.
Qed.

Lemma block_S_cmap cs i j : block_mat (@b_S Y D) (g x0) (cmap cs) i j = g (block_mat (@b_S X D) x0 cs i j).
Proof.
  revert i j. induction cs as [|[m b] r IH]; intros i j; [reflexivity|]. cbn [cmap map block_mat fst snd]. fold (cmap r).
  cbn [fmap b_np b_S]. destruct (_ && _); [reflexivity|]. destruct (_ || _); [reflexivity|]. apply IH.
Qed.

Lemma start_cmap n cs : start_of n (cmap cs) = start_of n cs.
Proof.
  induction cs as [|[m b] r IH]; [reflexivity|]. cbn [cmap map start_of fst snd]. fold (cmap r).
  rewrite IH. reflexivity.
Qed.

Lemma free_cmap n cs : free_of n (cmap cs) = free_of n cs.
Proof. unfold free_of. rewrite assoc_cmap. destruct (assoc String.eqb n cs); reflexivity. Qed.

Lemma parse_cmap cs s : parse_connection (cmap cs) s = parse_connection cs s.
Proof.
  unfold parse_connection. destruct (split_colon s) as [|a [|b [|c [|d [|e r]]]]]; try reflexivity.
  rewrite !free_cmap, !start_cmap. reflexivity.
Qed.

Lemma parse_out_cmap cs s : parse_output (cmap cs) s = parse_output cs s.
Proof.
  unfold parse_output. destruct (split_colon s) as [|a [|b [|c [|d [|e r]]]]]; try reflexivity.
  rewrite !free_cmap, !start_cmap. reflexivity.
Qed.

Lemma foldM_ext A B (f f' : A -> B -> res A) a l : (forall a x, f a x = f' a x) -> foldM f a l = foldM f' a l.
Proof. intros H. revert a. induction l as [|x l IH]; intros a; [reflexivity|]. cbn [foldM]. rewrite H. apply bind_ext, IH. Qed.

Lemma net_C_cmap cs conns : net_C (cmap cs) conns = net_C cs conns.
Proof.
  unfold net_C.
  replace (block_mat (@b_C Y D) false (cmap cs)) with (block_mat (@b_C X D) false cs).
  - apply foldM_ext. intros C s. rewrite parse_cmap. reflexivity.
  - extensionality i. extensionality j. symmetry. apply block_mat_cmap. reflexivity.
Qed.

Lemma child_cmap off cs : child_orders off (cmap cs) = child_orders off cs.
Proof.
  revert off. induction cs as [|[m b] r IH]; intros off; [reflexivity|]. cbn [cmap map child_orders fst snd]. fold (cmap r).
  rewrite IH. reflexivity.
Qed.

Lemma order_cmap cs conns : net_order (cmap cs) conns = net_order cs conns.
Proof.
  unfold net_order, order_dict. rewrite child_cmap, total_cmap. f_equal.
  apply foldM_ext. intros d s. rewrite parse_out_cmap. reflexivity.
Qed.

Lemma check_cmap is_net b : check_buf is_net (fmap b) = rmap fmap (check_buf is_net b).
Proof.
  unfold check_buf, any_port, all_ports, order_bad. cbn [fmap b_np b_src b_det b_act b_order].
  destruct (existsb _ _); [reflexivity|]. destruct (existsb _ _); [reflexivity|]. destruct (existsb _ _); [reflexivity|].
  destruct (forallb _ _); [reflexivity|]. destruct (_ && _); reflexivity.
Qed.

Lemma net_buf_cmap cs conns : net_buf (g x0) d0 (cmap cs) conns = rmap fmap (net_buf x0 d0 cs conns).
Proof.
  unfold net_buf. rewrite order_cmap, rmap_bind. apply bind_ext. intros o.
  rewrite net_C_cmap, rmap_bind. apply bind_ext. intros C. rewrite <- check_cmap. f_equal.
  unfold fmap. cbn [b_np b_C b_src b_det b_act b_order b_S b_del]. rewrite total_cmap. f_equal;
    try (extensionality i; apply block_vec_cmap; reflexivity).
  extensionality i. extensionality j. apply block_S_cmap.
Qed.

Theorem build_cmap mods conns : build (g x0) d0 (cmap mods) conns = rmap fmap (build x0 d0 mods conns).
Proof.
  unfold build, set_buffers. destruct conns as [|s conns]; [reflexivity|]. destruct mods as [|m mods]; [reflexivity|].
  cbn [cmap map]. change ((fst m, fmap (snd m)) :: map _ mods) with (cmap (m :: mods)).
  rewrite select_cmap. destruct (select_comps (m :: mods) _) as [cs|]; cbn [rmap bind]; [|reflexivity].
  rewrite net_buf_cmap. destruct (net_buf x0 d0 cs _); reflexivity.
Qed.

End Map.

Section Compile.
Variables (X Y D : Type) (g : X -> Y) (x0 : X) (d0 : D).
Fixpoint csize (c : comp X D) : nat :=
  match c with Leaf _ => 1 | Net cs _ => S (list_sum (map (fun e => csize (snd e)) cs)) end.

Theorem compile_tmap c : compile (g x0) d0 (tmap g c) = rmap (fmap g) (compile x0 d0 c).
Proof.
  remember (csize c) as n eqn:E. assert (L : csize c <= n) by lia. clear E. revert c L.
  induction n as [|n IH]; intros [b|cs conns] L; cbn [csize] in L; try lia.
  - apply check_cmap.
  - cbn [tmap compile].
    match goal with |- bind (?f1 _) _ = rmap _ (bind (?f2 cs) _) => set (F1 := f1); set (F2 := f2) end.
    assert (H : F1 (map (fun e => (fst e, tmap g (snd e))) cs) = rmap (cmap g) (F2 cs)).
    { assert (L' : list_sum (map (fun e => csize (snd e)) cs) <= n) by lia. clear L. induction cs as [|[m c] r IHr]; [reflexivity|].
      cbn [map list_sum fold_right snd] in L'. change (fold_right Nat.add 0 ?l) with (list_sum l) in L'.
      cbn [map fst snd]. cbn. fold F1 F2. rewrite IH by lia. destruct (compile x0 d0 c); cbn [rmap bind]; [|reflexivity].
      rewrite IHr by lia. destruct (F2 r); reflexivity. }
    rewrite H. destruct (F2 cs) as [mods|]; cbn [rmap bind]; [|reflexivity]. apply build_cmap.
Qed.
End Compile.
