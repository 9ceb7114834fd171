(** Facts about the expansion of sources. *)
From Verif Require Import Base SourceModel SourceSpec EnvProofs.
Set Implicit Arguments.
Unset Strict Implicit.
Local Open Scope nat_scope.

Lemma dim_eqb_eq : forall a b, dim_eqb a b = true <-> a = b.
Proof. intros [] []; cbn; split; congruence. Qed.

Section Proofs.
Variable K : Type.
Variable k0 : K.

Lemma has_In : forall d (sh : list (dim * nat)), has d sh = true <-> In d (map fst sh).
Proof.
  intros d sh. unfold has. rewrite existsb_exists, in_map_iff. split.
  - intros (p & I & E). apply dim_eqb_eq in E. exists p; auto.
  - intros (p & E & I). exists p. split; [exact I|]. apply dim_eqb_eq. auto.
Qed.

Lemma width_app : forall sh d e n, width (sh ++ [(e, n)]) d =
  if has d sh then width sh d else if dim_eqb d e then n else 1.
Proof.
  induction sh as [|[x m] sh IH]; intros d e n; cbn; [reflexivity|].
  unfold has in *. cbn. destruct (dim_eqb d x); [reflexivity|]. apply IH.
Qed.

Lemma width_out : forall sh d, has d sh = false -> width sh d = 1.
Proof.
  induction sh as [|[x m] sh IH]; intros d H; cbn in *; [reflexivity|].
  unfold has in H. cbn in H. destruct (dim_eqb d x); [discriminate|]. apply IH. exact H.
Qed.

(** Adding a missing dimension changes neither sizes nor values. *)
Lemma add_dim_sound : forall sh (v : list nat -> K) d sh' v', add_dim (sh, v) d = (sh', v') ->
  (forall x, width sh' x = width sh x) /\ (forall p, read sh' v' p = read sh v p) /\
  has d sh' = true /\ (forall x, has x sh = true -> has x sh' = true).
Proof.
  intros sh v d sh' v' H. unfold add_dim in H. destruct (has d sh) eqn:E; injection H as <- <-.
  - auto.
  - repeat split.
    + intros x. rewrite width_app. destruct (has x sh) eqn:X; [reflexivity|].
      rewrite (width_out X). destruct (dim_eqb x d); reflexivity.
    + intros p. unfold read. rewrite map_app. cbn. rewrite removelast_last. reflexivity.
    + unfold has. rewrite existsb_app. cbn. destruct d; cbn; auto using orb_true_r.
    + intros x X. unfold has in *. rewrite existsb_app, X. reflexivity.
Qed.

Lemma size_width : forall sh d, has d sh = true -> size_of d sh = width sh d.
Proof.
  induction sh as [|[x n] sh IH]; intros d H; [discriminate|].
  unfold size_of, has in *. cbn in *. destruct (dim_eqb d x); [reflexivity|]. apply IH. exact H.
Qed.

Lemma align_sound : forall sh (v : list nat -> K),
  let x := align (add_missing (sh, v)) in
  b_c x = width sh DC /\ b_t x = width sh DT /\ b_w x = width sh DW /\ b_s x = width sh DS /\
  b_b x = width sh DB /\
  forall c t w s b, b_val x c t w s b = read sh v (at_pos c t w s b).
Proof.
  intros sh v x. unfold x, add_missing, all_dims. cbn [fold_left]. clear x.
  destruct (add_dim (sh, v) DC) as [s1 v1] eqn:E1.
  destruct (add_dim (s1, v1) DT) as [s2 v2] eqn:E2.
  destruct (add_dim (s2, v2) DW) as [s3 v3] eqn:E3.
  destruct (add_dim (s3, v3) DS) as [s4 v4] eqn:E4.
  destruct (add_dim (s4, v4) DB) as [s5 v5] eqn:E5.
  apply add_dim_sound in E1. destruct E1 as (W1 & R1 & H1 & M1).
  apply add_dim_sound in E2. destruct E2 as (W2 & R2 & H2 & M2).
  apply add_dim_sound in E3. destruct E3 as (W3 & R3 & H3 & M3).
  apply add_dim_sound in E4. destruct E4 as (W4 & R4 & H4 & M4).
  apply add_dim_sound in E5. destruct E5 as (W5 & R5 & H5 & M5).
  assert (W : forall d, width s5 d = width sh d).
  { intros d. rewrite W5, W4, W3, W2, W1. reflexivity. }
  unfold align; cbn [b_c b_t b_w b_s b_b b_val].
  rewrite !size_width by auto 10. rewrite !W. repeat split.
  intros c t w s b.
  change (read s5 v5 (at_pos c t w s b) = read sh v (at_pos c t w s b)).
  rewrite R5, R4, R3, R2, R1. reflexivity.
Qed.

Lemma known_named : forall sh, known_names (map (fun p => (Named (fst p), snd p)) sh) = Ok sh.
Proof.
  induction sh as [|[d n] sh IH]; cbn; [reflexivity|]. rewrite IH. reflexivity.
Qed.

Lemma all_named : forall sh : list (dim * nat),
  forallb is_named (map (fun p => (Named (fst p), snd p)) sh) = true.
Proof. induction sh as [|[d n] sh IH]; cbn; auto. Qed.

(** A source with distinct names has at most five dimensions. *)
Lemma distinct_length : forall sh, distinct sh -> length sh <= 5.
Proof.
  intros sh D. rewrite <- (map_length fst). change 5 with (length all_dims).
  apply NoDup_incl_length; [exact D|]. intros d _. destruct d; cbn; tauto.
Qed.

Lemma handle_named : forall e sh (v : list nat -> K), distinct sh ->
  handle_source k0 e (named sh v) =
  (do y <- fit_time k0 (num_t e) (add_imag k0 (align (add_missing (sh, v)))); expand k0 e y).
Proof.
  intros e sh v D. unfold handle_source, named, to_tensor.
  rewrite map_length.
  assert (L : 5 <? length sh = false) by (apply Nat.ltb_ge; apply distinct_length; exact D).
  rewrite L. unfold with_names. rewrite all_named. cbn [bind]. rewrite known_named. reflexivity.
Qed.

(** ** Order of the dimensions *)
Lemma same_add_imag : forall x y : block K, same_block x y -> same_block (add_imag k0 x) (add_imag k0 y).
Proof.
  intros x y (A & B & C & D & E & F). unfold add_imag. rewrite A.
  destruct (b_c y =? 1); [|repeat split; auto].
  repeat split; cbn; auto. intros. rewrite F. reflexivity.
Qed.

Lemma same_fit : forall n (x y : block K), same_block x y -> same_res (fit_time k0 n x) (fit_time k0 n y).
Proof.
  intros n x y (A & B & C & D & E & F). unfold fit_time. rewrite A, B.
  destruct ((1 <? b_t y) && negb (b_t y =? n)); [|repeat split; auto].
  destruct (b_t y <? n); [|repeat split; auto].
  destruct (n <? b_c y); [exact eq_refl|]. destruct (negb (b_c y =? 2)); [exact eq_refl|].
  repeat split; cbn; auto; try congruence. intros. rewrite F. reflexivity.
Qed.

Lemma same_expand : forall e (x y : block K), same_block x y -> same_res (expand k0 e x) (expand k0 e y).
Proof.
  intros e x y (A & B & C & D & E & F). unfold expand. rewrite A, B, C, D, E.
  destruct ((1 <? b_w y) && negb (b_w y =? num_wl e)); [exact eq_refl|].
  destruct ((1 <? b_s y) && negb (b_s y =? num_sources e)); [exact eq_refl|].
  destruct (bsize (b_c y) 2); cbn [bind]; [|exact eq_refl]. destruct (bsize (b_t y) (num_t e)); cbn [bind]; [|exact eq_refl].
  destruct (bsize (b_w y) (num_wl e)); cbn [bind]; [|exact eq_refl].
  destruct (bsize (b_s y) (num_sources e)); cbn [bind]; [|exact eq_refl].
  destruct (bsize (b_b y) 1); cbn [bind]; [|exact eq_refl].
  destruct (num_mc e <? a2); cbn [bind]; [exact eq_refl|]. repeat split; auto. intros.
  cbn [b_val]. destruct (s <? a2); [|reflexivity]. apply F.
Qed.

Lemma same_bind : forall (r r' : res (block K)) (f : block K -> res (block K)),
  same_res r r' -> (forall x y, same_block x y -> same_res (f x) (f y)) ->
  same_res (bind r f) (bind r' f).
Proof.
  intros [a|e] [b|e'] f H F; cbn in *; try contradiction; [apply F; exact H|exact H].
Qed.

Lemma order_irrelevant : forall e sh sh' (v v' : list nat -> K), distinct sh -> distinct sh' ->
  same_values sh sh' v v' ->
  same_res (handle_source k0 e (named sh v)) (handle_source k0 e (named sh' v')).
Proof.
  intros e sh sh' v v' D D' [W R]. rewrite (handle_named e v D), (handle_named e v' D').
  apply same_bind; [|apply same_expand]. apply same_fit. apply same_add_imag.
  pose proof (align_sound sh v) as (A1 & A2 & A3 & A4 & A5 & A6).
  pose proof (align_sound sh' v') as (B1 & B2 & B3 & B4 & B5 & B6).
  cbv zeta in *. repeat split; try congruence. intros. rewrite A6, B6. apply R.
Qed.

(** ** Values *)
Lemma bsize_Ok : forall a b n, bsize a b = Ok n -> b <> 0 -> a <> 0 -> 1 < b \/ a <= b -> n = b /\ (a = 1 \/ a = b).
Proof.
  intros a b n H. unfold bsize in H. destruct (Nat.eqb_spec a b); [injection H as <-; subst; auto|].
  destruct (Nat.eqb_spec a 1); [injection H as <-; auto|].
  destruct (Nat.eqb_spec b 1); [|discriminate]. injection H as <-. lia.
Qed.

(** Sources that fit: at most one or exactly the right number of entries in each dimension; time
    may also be longer, or of length two. *)
Definition fits (e : dims) (sh : list (dim * nat)) : Prop :=
  (width sh DC = 1 \/ width sh DC = 2) /\
  (width sh DT = 1 \/ num_t e <= width sh DT \/ width sh DT = 2) /\
  (width sh DW = 1 \/ width sh DW = num_wl e) /\
  (width sh DS = 1 \/ width sh DS = num_sources e).

(** The value a simulation should see. *)
Definition expected (e : dims) (sh : list (dim * nat)) (v : list nat -> K) (c t w m b : nat) : K :=
  if m <? num_sources e then
    if (width sh DC =? 1) && (1 <=? c) then k0
    else if (1 <? width sh DT) && (width sh DT <=? t) then k0
    else read sh v (repeated sh (at_pos c t w m b))
  else k0.

Lemma repeated_at : forall sh c t w s b,
  forall d, repeated sh (at_pos c t w s b) d =
  at_pos (bindex (width sh DC) c) (bindex (width sh DT) t) (bindex (width sh DW) w)
         (bindex (width sh DS) s) (bindex (width sh DB) b) d.
Proof. intros sh c t w s b []; reflexivity. Qed.

Lemma read_ext : forall sh (v : list nat -> K) p q, (forall d, p d = q d) -> read sh v p = read sh v q.
Proof.
  intros sh v p q E. unfold read. f_equal. apply map_ext. intros a. apply E.
Qed.

(** Length two is right by accident: the padding adds num_t - 2 steps. *)
Lemma accepted : forall e sh (v : list nat -> K), distinct sh -> fits e sh ->
  1 <= num_t e -> 1 <= num_wl e -> num_sources e <= num_mc e ->
  exists x, handle_source k0 e (named sh v) = Ok x /\
    b_c x = 2 /\ b_t x = num_t e /\ b_w x = num_wl e /\ b_s x = num_mc e /\ b_b x = width sh DB /\
    forall c t w m b, c < 2 -> t < num_t e -> w < num_wl e -> m < num_mc e -> b < width sh DB ->
      b_val x c t w m b = expected e sh v c t w m b.
Proof.
  intros e sh v D (FC & FT & FW & FS) NT NW NS. rewrite (handle_named e v D).
  pose proof (align_sound sh v) as (A1 & A2 & A3 & A4 & A5 & A6). cbv zeta in *.
  set (a := align (add_missing (sh, v))) in *.
  (* with an imaginary part *)
  set (x := add_imag k0 a).
  assert (X : b_c x = 2 /\ b_t x = width sh DT /\ b_w x = width sh DW /\ b_s x = width sh DS /\
              b_b x = width sh DB /\
              forall c t w s b, b_val x c t w s b =
                if (width sh DC =? 1) && (1 <=? c) then k0 else read sh v (at_pos c t w s b)).
  { unfold x, add_imag. rewrite A1. destruct (Nat.eqb_spec (width sh DC) 1) as [E|E].
    - repeat split; auto. intros c t w s b. cbn [b_val andb]. rewrite A6.
      destruct (Nat.ltb_spec c 1), (Nat.leb_spec 1 c); try lia; reflexivity.
    - cbn [andb]. repeat split; auto. rewrite A1. destruct FC; [contradiction|assumption]. }
  clearbody x. clear A1 A2 A3 A4 A5 A6 a. destruct X as (X1 & X2 & X3 & X4 & X5 & X6).
  (* fitted in time *)
  assert (Y : exists y, fit_time k0 (num_t e) x = Ok y /\
     b_c y = 2 /\ (b_t y = num_t e \/ b_t y = 1) /\ b_w y = width sh DW /\ b_s y = width sh DS /\
     b_b y = width sh DB /\
     forall c t w s b, t < num_t e -> b_val y c (bindex (b_t y) t) w s b =
       if (width sh DC =? 1) && (1 <=? c) then k0
       else if (1 <? width sh DT) && (width sh DT <=? t) then k0
       else read sh v (at_pos c (bindex (width sh DT) t) w s b)).
  { unfold fit_time. rewrite X1, X2.
    destruct (Nat.ltb_spec 1 (width sh DT)) as [L|L]; cbn [andb].
    - destruct (Nat.eqb_spec (width sh DT) (num_t e)) as [E|E]; cbn [negb].
      + exists x. repeat split; auto; try (left; congruence). intros c t w s b Ht.
        rewrite X6, X2. destruct ((width sh DC =? 1) && (1 <=? c)); [reflexivity|].
        destruct (Nat.leb_spec (width sh DT) t); [lia|]. reflexivity.
      + destruct (Nat.ltb_spec (width sh DT) (num_t e)) as [G|G].
        * assert (T2 : width sh DT = 2) by lia.
          destruct (Nat.ltb_spec (num_t e) 2); [lia|]. cbn [Nat.eqb negb].
          eexists; split; [reflexivity|]. cbn [b_c b_t b_w b_s b_b b_val].
          repeat split; auto; [left; lia|]. intros c t w s b Ht.
          rewrite T2. replace (2 + (num_t e - 2)) with (num_t e) by lia.
          assert (BI : bindex (num_t e) t = t).
          { unfold bindex. destruct (Nat.eqb_spec (num_t e) 1); lia. }
          rewrite BI. cbn [bindex Nat.eqb].
          destruct (Nat.ltb_spec t 2), (Nat.leb_spec 2 t); try lia.
          -- rewrite X6. reflexivity.
          -- destruct ((width sh DC =? 1) && (1 <=? c)); reflexivity.
        * eexists; split; [reflexivity|]. cbn [b_c b_t b_w b_s b_b b_val].
          repeat split; auto. intros c t w s b Ht. rewrite X6.
          destruct ((width sh DC =? 1) && (1 <=? c)); [reflexivity|].
          destruct (Nat.leb_spec (width sh DT) t); [lia|].
          apply read_ext. intros []; cbn; try reflexivity.
          unfold bindex. destruct (Nat.eqb_spec (num_t e) 1), (Nat.eqb_spec (width sh DT) 1); lia.
    - assert (T1 : width sh DT = 1) by lia.
      exists x. split; [reflexivity|]. repeat split; auto; try (right; congruence).
      intros c t w s b Ht. rewrite X6, X2, T1. cbn [andb Nat.ltb]. reflexivity. }
  destruct Y as (y & Y0 & Y1 & Y2 & Y3 & Y4 & Y5 & Y6). rewrite Y0. cbn [bind].
  unfold expand. rewrite Y1, Y3, Y4, Y5.
  assert (W1 : (1 <? width sh DW) && negb (width sh DW =? num_wl e) = false).
  { destruct FW as [->| ->]; [reflexivity|]. rewrite Nat.eqb_refl. apply andb_false_r. }
  assert (S1 : (1 <? width sh DS) && negb (width sh DS =? num_sources e) = false).
  { destruct FS as [->| ->]; [reflexivity|]. rewrite Nat.eqb_refl. apply andb_false_r. }
  rewrite W1, S1. cbn [bsize Nat.eqb bind].
  assert (BT : bsize (b_t y) (num_t e) = Ok (num_t e)).
  { unfold bsize. destruct Y2 as [->| ->]; [rewrite Nat.eqb_refl; reflexivity|].
    destruct (Nat.eqb_spec 1 (num_t e)) as [E|E]; [rewrite <- E|]; reflexivity. }
  assert (BW : bsize (width sh DW) (num_wl e) = Ok (num_wl e)).
  { unfold bsize. destruct FW as [->| ->]; [|rewrite Nat.eqb_refl; reflexivity].
    destruct (Nat.eqb_spec 1 (num_wl e)) as [E|E]; [rewrite <- E|]; reflexivity. }
  assert (BS : bsize (width sh DS) (num_sources e) = Ok (num_sources e)).
  { unfold bsize. destruct FS as [->| ->]; [|rewrite Nat.eqb_refl; reflexivity].
    destruct (Nat.eqb_spec 1 (num_sources e)) as [E|E]; [rewrite <- E|]; reflexivity. }
  assert (BB : bsize (width sh DB) 1 = Ok (width sh DB)).
  { unfold bsize. destruct (Nat.eqb_spec (width sh DB) 1) as [E|E]; reflexivity. }
  rewrite BT, BW, BS, BB. cbn [bind].
  destruct (Nat.ltb_spec (num_mc e) (num_sources e)); [lia|].
  eexists; split; [reflexivity|]. cbn [b_c b_t b_w b_s b_b b_val].
  repeat split; auto. intros c t w m b Hc Ht Hw Hm Hb. unfold expected.
  destruct (m <? num_sources e); [|reflexivity].
  rewrite Y6 by exact Ht. cbn [bindex Nat.eqb].
  destruct (Nat.eqb_spec (width sh DC) 1) as [E|E]; cbn [andb].
  - destruct (Nat.leb_spec 1 c); [reflexivity|].
    destruct ((1 <? width sh DT) && (width sh DT <=? t)); [reflexivity|].
    apply read_ext. intros d. rewrite repeated_at, E. destruct d; cbn; try reflexivity. lia.
  - destruct ((1 <? width sh DT) && (width sh DT <=? t)); [reflexivity|].
    apply read_ext. intros d. rewrite repeated_at.
    assert (C2 : width sh DC = 2) by tauto. rewrite C2. destruct d; reflexivity.
Qed.

(** Only such sources are accepted (dimensions of size zero aside). *)
Lemma accepted_only : forall e sh (v : list nat -> K) x, distinct sh ->
  (forall d, width sh d <> 0) -> handle_source k0 e (named sh v) = Ok x -> fits e sh.
Proof.
  intros e sh v x0 D NZ H. rewrite (handle_named e v D) in H. ok H y Hy.
  pose proof (align_sound sh v) as (A1 & A2 & A3 & A4 & A5 & A6). cbv zeta in *.
  set (a := align (add_missing (sh, v))) in *.
  set (x := add_imag k0 a) in *.
  assert (X : (width sh DC = 1 /\ b_c x = 2 \/ width sh DC <> 1 /\ b_c x = width sh DC) /\
              b_t x = width sh DT /\ b_w x = width sh DW /\ b_s x = width sh DS).
  { unfold x, add_imag. rewrite A1. destruct (Nat.eqb_spec (width sh DC) 1) as [E|E]; cbn; auto. }
  clearbody x. clear A1 A2 A3 A4 A5 A6 a. destruct X as (X1 & X2 & X3 & X4).
  assert (Y : b_c y = b_c x /\ b_w y = width sh DW /\ b_s y = width sh DS /\
              (b_t y = width sh DT /\ (width sh DT = 1 \/ width sh DT = num_t e) \/
               num_t e < width sh DT \/
               b_t y = width sh DT + (num_t e - 2) /\ 1 < width sh DT < num_t e)).
  { unfold fit_time in Hy. rewrite X2 in Hy.
    pose proof (NZ DT) as ZT.
    destruct (Nat.ltb_spec 1 (width sh DT)) as [L|L]; cbn [andb] in Hy.
    - destruct (Nat.eqb_spec (width sh DT) (num_t e)) as [E|E]; cbn [negb] in Hy.
      + injection Hy as <-. repeat split; auto.
      + destruct (Nat.ltb_spec (width sh DT) (num_t e)) as [G|G].
        * destruct (Nat.ltb_spec (num_t e) (b_c x)); [discriminate|].
          destruct (Nat.eqb_spec (b_c x) 2) as [C|C]; cbn [negb] in Hy; [|discriminate].
          injection Hy as <-. cbn [b_c b_t b_w b_s]. repeat split; auto. right; right.
          rewrite C. lia.
        * injection Hy as <-. cbn [b_c b_t b_w b_s]. repeat split; auto. right; left. lia.
    - injection Hy as <-. repeat split; auto. left. split; [exact X2|]. lia. }
  destruct Y as (Y1 & Y2 & Y3 & Y4).
  unfold expand in H. rewrite Y2, Y3 in H.
  destruct ((1 <? width sh DW) && negb (width sh DW =? num_wl e)) eqn:EW; [discriminate|].
  destruct ((1 <? width sh DS) && negb (width sh DS =? num_sources e)) eqn:ES; [discriminate|].
  ok H nc Hc. ok H nt Ht. clear H.
  pose proof (NZ DC); pose proof (NZ DT); pose proof (NZ DW); pose proof (NZ DS).
  repeat split.
  - unfold bsize in Hc. rewrite Y1 in Hc. destruct X1 as [[? _]|[N E]]; [auto|].
    rewrite E in Hc. destruct (Nat.eqb_spec (width sh DC) 2); [auto|].
    destruct (Nat.eqb_spec (width sh DC) 1); [auto|]. discriminate.
  - destruct Y4 as [[_ [Y4|Y4]]|[Y4|[Y4 G]]]; try lia.
    right; right. unfold bsize in Ht. rewrite Y4 in Ht.
    destruct (Nat.eqb_spec (width sh DT + (num_t e - 2)) (num_t e)); [lia|].
    destruct (Nat.eqb_spec (width sh DT + (num_t e - 2)) 1); [lia|].
    destruct (Nat.eqb_spec (num_t e) 1); [lia|discriminate].
  - destruct (Nat.ltb_spec 1 (width sh DW)); [|lia].
    destruct (Nat.eqb_spec (width sh DW) (num_wl e)); [auto|discriminate].
  - destruct (Nat.ltb_spec 1 (width sh DS)); [|lia].
    destruct (Nat.eqb_spec (width sh DS) (num_sources e)); [auto|discriminate].
Qed.

(** ** Refused sources *)
Lemma wrong_size : forall e sh (v : list nat -> K), distinct sh ->
  (1 < width sh DW /\ width sh DW <> num_wl e) \/
  (1 < width sh DS /\ width sh DS <> num_sources e) ->
  forall x, handle_source k0 e (named sh v) <> Ok x.
Proof.
  intros e sh v D B x H. rewrite (handle_named e v D) in H. ok H y Hy.
  pose proof (align_sound sh v) as (A1 & A2 & A3 & A4 & A5 & A6). cbv zeta in *.
  set (a := align (add_missing (sh, v))) in *.
  assert (W : b_w y = width sh DW /\ b_s y = width sh DS).
  { assert (X : b_w (add_imag k0 a) = width sh DW /\ b_s (add_imag k0 a) = width sh DS).
    { unfold add_imag. destruct (b_c a =? 1); cbn; auto. }
    revert Hy. unfold fit_time. destruct ((1 <? _) && _); [|intros E; injection E as <-; exact X].
    destruct (_ <? _); [|intros E; injection E as <-; exact X].
    destruct (_ <? _); [discriminate|]. destruct (negb _); [discriminate|].
    intros E; injection E as <-; exact X. }
  destruct W as [W S]. unfold expand in H. rewrite W, S in H.
  destruct ((1 <? width sh DW) && negb (width sh DW =? num_wl e)) eqn:EW; [discriminate|].
  destruct ((1 <? width sh DS) && negb (width sh DS =? num_sources e)) eqn:ES; [discriminate|].
  destruct B as [[L N]|[L N]].
  - apply Nat.ltb_lt in L. apply Nat.eqb_neq in N. rewrite L, N in EW. discriminate.
  - apply Nat.ltb_lt in L. apply Nat.eqb_neq in N. rewrite L, N in ES. discriminate.
Qed.

(** Short sources: any length other than one and two fails. *)
Lemma too_short : forall e sh (v : list nat -> K), distinct sh ->
  (width sh DC = 1 \/ width sh DC = 2) -> 2 < width sh DT -> width sh DT < num_t e ->
  (width sh DW = 1 \/ width sh DW = num_wl e) -> (width sh DS = 1 \/ width sh DS = num_sources e) ->
  handle_source k0 e (named sh v) = Err RuntimeError.
Proof.
  intros e sh v D FC L G FW FS. rewrite (handle_named e v D).
  pose proof (align_sound sh v) as (A1 & A2 & A3 & A4 & A5 & A6). cbv zeta in *.
  set (a := align (add_missing (sh, v))) in *.
  set (x := add_imag k0 a).
  assert (X : b_c x = 2 /\ b_t x = width sh DT /\ b_w x = width sh DW /\ b_s x = width sh DS).
  { unfold x, add_imag. rewrite A1. destruct (Nat.eqb_spec (width sh DC) 1) as [E|E]; cbn; auto.
    repeat split; auto. rewrite A1. tauto. }
  clearbody x. destruct X as (X1 & X2 & X3 & X4).
  unfold fit_time. rewrite X1, X2.
  destruct (Nat.ltb_spec 1 (width sh DT)); [|lia].
  destruct (Nat.eqb_spec (width sh DT) (num_t e)); [lia|]. cbn [andb negb].
  destruct (Nat.ltb_spec (width sh DT) (num_t e)); [|lia].
  destruct (Nat.ltb_spec (num_t e) 2); [lia|]. cbn [Nat.eqb negb bind].
  unfold expand. cbn [b_c b_t b_w b_s b_b]. rewrite X3, X4.
  assert (W1 : (1 <? width sh DW) && negb (width sh DW =? num_wl e) = false).
  { destruct FW as [->| ->]; [reflexivity|]. rewrite Nat.eqb_refl. apply andb_false_r. }
  assert (S1 : (1 <? width sh DS) && negb (width sh DS =? num_sources e) = false).
  { destruct FS as [->| ->]; [reflexivity|]. rewrite Nat.eqb_refl. apply andb_false_r. }
  rewrite W1, S1. cbn [bsize Nat.eqb bind].
  unfold bsize at 1.
  destruct (Nat.eqb_spec (width sh DT + (num_t e - 2)) (num_t e)); [lia|].
  destruct (Nat.eqb_spec (width sh DT + (num_t e - 2)) 1); [lia|].
  destruct (Nat.eqb_spec (num_t e) 1); [lia|]. reflexivity.
Qed.

(** ** Unnamed sources *)
Lemma unnamed4 : forall e t w s b (v : list nat -> K),
  handle_source k0 e (Tensor [(Unnamed, t); (Unnamed, w); (Unnamed, s); (Unnamed, b)] v) =
  handle_source k0 e (named [(DC, 1); (DT, t); (DW, w); (DS, s); (DB, b)] (fun idx => v (tl idx))).
Proof. reflexivity. Qed.

Lemma unnamed5 : forall e c t w s b (v : list nat -> K), c <= 2 ->
  handle_source k0 e (Tensor [(Unnamed, c); (Unnamed, t); (Unnamed, w); (Unnamed, s); (Unnamed, b)] v) =
  handle_source k0 e (named [(DC, c); (DT, t); (DW, w); (DS, s); (DB, b)] v).
Proof.
  intros e c t w s b v H. unfold handle_source, to_tensor, named, with_names, is_named.
  cbn [length forallb fst existsb andb orb map snd Nat.ltb Nat.leb].
  destruct c as [|[|[|c]]]; [reflexivity|reflexivity|reflexivity|lia].
Qed.

Lemma number : forall e (v : list nat -> K),
  handle_source k0 e (Tensor [] v) = handle_source k0 e (named [] v).
Proof. reflexivity. Qed.

Lemma complex4 : forall e t w s b (re im : list nat -> K),
  handle_source k0 e (ComplexArray [t; w; s; b] re im) =
  handle_source k0 e (named [(DC, 2); (DT, t); (DW, w); (DS, s); (DB, b)]
    (fun idx => match idx with [] => k0 | c :: r => if c =? 0 then re r else im r end)).
Proof. reflexivity. Qed.

Lemma unnamed_refused : forall e sh (v : list nat -> K),
  (forall p, In p sh -> fst p = Unnamed) -> length sh <> 0 -> length sh <> 4 -> length sh <> 5 ->
  handle_source k0 e (Tensor sh v) = Err ValueError.
Proof.
  intros e sh v A N0 N4 N5. unfold handle_source, to_tensor.
  destruct (Nat.ltb_spec 5 (length sh)); [reflexivity|].
  assert (F : forall p, In p sh -> is_named p = false).
  { intros p I. unfold is_named. rewrite (A p I). reflexivity. }
  assert (W : with_names sh v = Err ValueError).
  { unfold with_names.
    destruct sh as [|p0 sh]; [cbn in *; lia|].
    rewrite (proj1 (not_true_iff_false (forallb is_named (p0 :: sh)))).
    - destruct (existsb is_named (p0 :: sh)); [reflexivity|].
      destruct p0. destruct sh as [|[? ?] [|[? ?] [|[? ?] [|[? ?] [|? ?]]]]]; cbn in *; try reflexivity; lia.
    - intros X. rewrite forallb_forall in X. specialize (X p0 (or_introl eq_refl)).
      rewrite F in X; [discriminate|left; reflexivity]. }
  rewrite W. reflexivity.
Qed.

Lemma mixed_refused : forall e sh (v : list nat -> K) p q, In p sh -> In q sh ->
  fst p = Unnamed -> fst q <> Unnamed -> handle_source k0 e (Tensor sh v) = Err ValueError.
Proof.
  intros e sh v p q Ip Iq P Q. unfold handle_source, to_tensor.
  destruct (5 <? length sh); [reflexivity|].
  assert (W : with_names sh v = Err ValueError).
  { unfold with_names.
    rewrite (proj1 (not_true_iff_false (forallb is_named sh))).
    - assert (E : existsb is_named sh = true).
      { apply existsb_exists. exists q. split; [exact Iq|]. unfold is_named.
        destruct (fst q); [congruence|reflexivity|reflexivity]. }
      rewrite E. reflexivity.
    - intros X. rewrite forallb_forall in X. specialize (X p Ip). unfold is_named in X.
      rewrite P in X. discriminate. }
  rewrite W. reflexivity.
Qed.

End Proofs.
