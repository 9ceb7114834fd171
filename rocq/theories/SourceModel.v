(** Expanding the source tensor (photontorch/networks/network.py:581-711, [_handle_source]).
    A tensor is a list of named sizes and a function from indices to values. *)
From Verif Require Import Base.
Set Implicit Arguments.
Unset Strict Implicit.
Local Open Scope nat_scope.

(** The dimension names 'c', 't', 'w', 's', 'b'. *)
Inductive dim := DC | DT | DW | DS | DB.
Definition dim_eqb (a b : dim) : bool :=
  match a, b with DC, DC | DT, DT | DW, DW | DS, DS | DB, DB => true | _, _ => false end.
Definition all_dims : list dim := [DC; DT; DW; DS; DB].

(** The name of a dimension of a torch tensor: none, one of the five, or another one. *)
Inductive label := Unnamed | Named (d : dim) | Other.

Section Source.
Variable K : Type.
Variable k0 : K.

(** The argument of forward: a torch tensor, or (unnamed) a number or real numpy array, or a
    complex numpy array.  Not modelled: things that cannot be converted to a tensor. *)
Inductive source :=
| Tensor (shape : list (label * nat)) (val : list nat -> K)
| ComplexArray (shape : list nat) (re im : list nat -> K).

(** network.py:616-618: a complex numpy array becomes a real one with two leading entries. *)
Definition to_tensor (s : source) : list (label * nat) * (list nat -> K) :=
  match s with
  | Tensor sh v => (sh, v)
  | ComplexArray sh re im =>
      ((Unnamed, 2) :: map (fun n => (Unnamed, n)) sh,
       fun idx => match idx with [] => k0 | c :: r => if c =? 0 then re r else im r end)
  end.

Definition is_named (l : label * nat) : bool := match fst l with Unnamed => false | _ => true end.

(** network.py:631-655: names for the dimensions of an unnamed tensor.  ([all(())] is true in
    Python: a tensor without dimensions passes as named.) *)
Definition with_names (sh : list (label * nat)) (v : list nat -> K)
  : res (list (label * nat) * (list nat -> K)) :=
  if forallb is_named sh then Ok (sh, v)
  else if existsb is_named sh then Err ValueError
  else match sh with
       | [(_, c); (_, t); (_, w); (_, s); (_, b)] =>
           if 2 <? c then Err ValueError
           else Ok ([(Named DC, c); (Named DT, t); (Named DW, w); (Named DS, s); (Named DB, b)], v)
       | [(_, t); (_, w); (_, s); (_, b)] =>
           Ok ([(Named DC, 1); (Named DT, t); (Named DW, w); (Named DS, s); (Named DB, b)],
               fun idx => v (tl idx))
       | _ => Err ValueError
       end.

(** network.py:657-663: only the five names are allowed. *)
Fixpoint known_names (sh : list (label * nat)) : res (list (dim * nat)) :=
  match sh with
  | [] => Ok []
  | (Named d, n) :: r => do r' <- known_names r; Ok ((d, n) :: r')
  | _ :: _ => Err ValueError
  end.

Definition has (d : dim) (sh : list (dim * nat)) : bool := existsb (fun p => dim_eqb d (fst p)) sh.

(** network.py:665-670: missing dimensions are appended with size 1 ([source[..., None]]). *)
Definition add_dim (a : list (dim * nat) * (list nat -> K)) (d : dim)
  : list (dim * nat) * (list nat -> K) :=
  let '(sh, v) := a in
  if has d sh then (sh, v) else (sh ++ [(d, 1)], fun idx => v (removelast idx)).
Definition add_missing (a : list (dim * nat) * (list nat -> K)) : list (dim * nat) * (list nat -> K) :=
  fold_left add_dim all_dims a.

Definition size_of (d : dim) (sh : list (dim * nat)) : nat :=
  match find (fun p => dim_eqb d (fst p)) sh with Some (_, n) => n | None => 0 end.

(** A tensor in the order (c, t, w, s, b): its sizes and values. *)
Record block := { b_c : nat; b_t : nat; b_w : nat; b_s : nat; b_b : nat;
                  b_val : nat -> nat -> nat -> nat -> nat -> K }.

Definition index (c t w s b : nat) (d : dim) : nat :=
  match d with DC => c | DT => t | DW => w | DS => s | DB => b end.

(** network.py:671: [align_to]. *)
Definition align (a : list (dim * nat) * (list nat -> K)) : block :=
  let '(sh, v) := a in
  {| b_c := size_of DC sh; b_t := size_of DT sh; b_w := size_of DW sh; b_s := size_of DS sh;
     b_b := size_of DB sh;
     b_val := fun c t w s b => v (map (fun p => index c t w s b (fst p)) sh) |}.

(** network.py:673-674. *)
Definition add_imag (x : block) : block :=
  if b_c x =? 1
  then {| b_c := 2; b_t := b_t x; b_w := b_w x; b_s := b_s x; b_b := b_b x;
          b_val := fun c t w s b => if c <? 1 then b_val x c t w s b else k0 |}
  else x.

(** network.py:675-689.  Line 681 takes shape[0] (the number of real and imaginary parts) for the
    number of time steps.  [torch.cat] needs equal sizes in the other dimensions; a negative size
    raises RuntimeError. *)
Definition fit_time (num_t : nat) (x : block) : res block :=
  if (1 <? b_t x) && negb (b_t x =? num_t) then
    if b_t x <? num_t then
      if num_t <? b_c x then Err RuntimeError
      else if negb (b_c x =? 2) then Err RuntimeError
      else Ok {| b_c := b_c x; b_t := b_t x + (num_t - b_c x); b_w := b_w x; b_s := b_s x;
                 b_b := b_b x;
                 b_val := fun c t w s b => if t <? b_t x then b_val x c t w s b else k0 |}
    else Ok {| b_c := b_c x; b_t := num_t; b_w := b_w x; b_s := b_s x; b_b := b_b x;
               b_val := b_val x |}
  else Ok x.

(** [torch.broadcast_tensors] for one dimension. *)
Definition bsize (a b : nat) : res nat :=
  if a =? b then Ok a else if a =? 1 then Ok b else if b =? 1 then Ok a else Err RuntimeError.
Definition bindex (size i : nat) : nat := if size =? 1 then 0 else i.

(** What the expansion needs to know. *)
Record dims := { num_t : nat; num_wl : nat; num_sources : nat; num_mc : nat }.

(** network.py:690-711. *)
Definition expand (e : dims) (x : block) : res block :=
  if (1 <? b_w x) && negb (b_w x =? num_wl e) then Err ValueError
  else if (1 <? b_s x) && negb (b_s x =? num_sources e) then Err ValueError
  else
    do c <- bsize (b_c x) 2; do t <- bsize (b_t x) (num_t e); do w <- bsize (b_w x) (num_wl e);
    do s <- bsize (b_s x) (num_sources e); do b <- bsize (b_b x) 1;
    if num_mc e <? s then Err RuntimeError
    else Ok {| b_c := c; b_t := t; b_w := w; b_s := num_mc e; b_b := b;
               b_val := fun ci ti wi si bi =>
                 if si <? s
                 then b_val x (bindex (b_c x) ci) (bindex (b_t x) ti) (bindex (b_w x) wi)
                            (bindex (b_s x) si) (bindex (b_b x) bi)
                 else k0 |}.

Definition handle_source (e : dims) (src : source) : res block :=
  let '(sh, v) := to_tensor src in
  if 5 <? length sh then Err ValueError
  else
    do a <- with_names sh v;
    let '(sh1, v1) := a in
    do sh2 <- known_names sh1;
    do y <- fit_time (num_t e) (add_imag (align (add_missing (sh2, v1))));
    expand e y.

End Source.
