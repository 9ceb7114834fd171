(** Programs that create components and networks, seen as objects that are shared by reference.
    [NetModel] treats networks as values; this model keeps the identity of objects, the shallow copy made
    by [terminate], and the with-blocks that register components.  No proofs in this file.

    Simplifications: a program stops at its first exception (what a failed [link] leaves behind is the
    subject of [NetModel.rebuild]); attributes other than components are not modelled; which exception
    is raised first inside a nested [_set_buffers] is not tracked. *)
From Verif Require Import Base PyStr NetModel.
Set Implicit Arguments.
Unset Strict Implicit.
Local Open Scope string_scope.
Local Open Scope list_scope.
Local Open Scope nat_scope.

Section Obj.
Variables (X D : Type) (x0 : X) (d0 : D).
Notation buf := (buf X D).
Notation comps := (list (string * buf)).

(** Attribute names that every network has ("name", "link", ...): [torch.nn.Module.add_module] refuses
    them with a KeyError. *)
Variable reserved : string -> bool.
(** Python's recursion limit, in nested networks. *)
Variable limit : nat.

(** Objects are numbered in the order of their creation.  A network's [_modules], [connections] and
    [_buffers] are mutable and shared between a network and its shallow copies (nn.Module has no
    [__copy__]); they are numbered separately.  Its [name], [components] and counters are attributes of
    the object itself. *)
Inductive obj :=
| OComp (name : option string) (b : buf)
| ONet (name : option string) (cls : string) (cs : list (string * nat)) (nfree : option nat) (sh : nat).
Record shared := { sh_mods : list (string * nat); sh_conns : list string; sh_buf : option buf }.
(** [st_stack]: [_current_networks] (network.py:47). *)
Record state := { st_objs : list obj; st_sh : list shared; st_stack : list nat }.
Definition start : state := {| st_objs := []; st_sh := []; st_stack := [] |}.

Definition no_shared : shared := {| sh_mods := []; sh_conns := []; sh_buf := None |}.
Definition get_sh (s : state) (i : nat) : shared := nth i (st_sh s) no_shared.

Fixpoint set_nth {A} (l : list A) (i : nat) (a : A) : list A :=
  match l, i with
  | [], _ => []
  | _ :: r, 0 => a :: r
  | x :: r, S i => x :: set_nth r i a
  end.
Definition put_obj (s : state) (l : nat) (o : obj) : state :=
  {| st_objs := set_nth (st_objs s) l o; st_sh := st_sh s; st_stack := st_stack s |}.
Definition put_sh (s : state) (i : nat) (x : shared) : state :=
  {| st_objs := st_objs s; st_sh := set_nth (st_sh s) i x; st_stack := st_stack s |}.
(** A new object, and a new network with its own shared part. *)
Definition alloc (s : state) (o : obj) : state * nat :=
  ({| st_objs := st_objs s ++ [o]; st_sh := st_sh s; st_stack := st_stack s |}, length (st_objs s)).
Definition alloc_net (s : state) (name : option string) (cls : string) : state * nat :=
  ({| st_objs := st_objs s ++ [ONet name cls [] None (length (st_sh s))];
      st_sh := st_sh s ++ [no_shared]; st_stack := st_stack s |}, length (st_objs s)).

Definition name_of (o : obj) : option string := match o with OComp n _ => n | ONet n _ _ _ _ => n end.
Definition with_name (o : obj) (n : string) : obj :=
  match o with OComp _ b => OComp (Some n) b | ONet _ c cs f sh => ONet (Some n) c cs f sh end.
(** The object with number [l]; programs that use an undefined variable are not of interest. *)
Definition get (s : state) (l : nat) : res obj := of_option NameError (nth_error (st_objs s) l).
Definition get_net (s : state) (l : nat) : res (option string * string * list (string * nat) * option nat * nat) :=
  do o <- get s l;
  match o with ONet n c cs f sh => Ok (n, c, cs, f, sh) | OComp _ _ => Err AttributeError end.

(** network.py:144-176 [add_component]. *)
Definition add_comp (s : state) (net : nat) (key : string) (c : nat) : res state :=
  do (_, _, cs, _, sh) <- get_net s net;
  do o <- get s c;
  if existsb (fun e => String.eqb key (fst e)) cs then Err AttributeError else
  if match name_of o with Some n => negb (String.eqb n key) | None => false end then Err ValueError else
  if reserved key then Err KeyError else
  let x := get_sh s sh in
  Ok (put_sh s sh {| sh_mods := dict_set String.eqb key c (sh_mods x); sh_conns := sh_conns x; sh_buf := sh_buf x |}).

(** component.py:46-49: a component with a name adds itself to the current network. *)
Definition register (s : state) (name : option string) (c : nat) : res state :=
  match st_stack s, name with
  | nw :: _, Some n => add_comp s nw n c
  | _, _ => Ok s
  end.

(** ** [_set_buffers] *)
(** The buffers an object has now ([AttributeError] for a network without connections). *)
Definition stored (s : state) (l : nat) : res buf :=
  do o <- get s l;
  match o with
  | OComp _ b => Ok b
  | ONet _ _ _ _ sh => of_option AttributeError (sh_buf (get_sh s sh))
  end.

(** [parse_connection] and [parse_output_connection] as in [NetModel], with what the components fill in now
    ([re]: [num_ports], [set_C], ...) kept apart from the buffers they have stored ([st]: [port_order],
    [free_ports_at]); network.py:899-938, 946-977. *)
Definition wire_of (re st : comps) (conn : string) : res (option (nat * nat)) :=
  match split_colon conn with
  | [c1; s1; c2; s2] =>
      do i1 <- of_option ValueError (py_int s1);
      do i2 <- of_option ValueError (py_int s2);
      if String.eqb c1 c2 && (i1 =? i2)%Z then Err IndexError else
      do f1 <- of_option KeyError (free_of c1 st);
      if (Z.of_nat (length f1) <=? i1)%Z then Err ValueError else
      do f2 <- of_option KeyError (free_of c2 st);
      if (Z.of_nat (length f2) <=? i2)%Z then Err ValueError else
      do st1 <- of_option KeyError (start_of c1 re);
      do p1 <- py_index f1 i1;
      do st2 <- of_option KeyError (start_of c2 re);
      do p2 <- py_index f2 i2;
      Ok (Some (st1 + p1, st2 + p2))
  | _ :: _ :: _ :: _ :: _ => Err ValueError
  | _ => Ok None
  end.
Definition wiring (re st : comps) (conns : list string) : res (nat -> nat -> bool) :=
  foldM (fun C conn =>
           do o <- wire_of re st conn;
           match o with
           | None => Ok C
           | Some (i, j) => if (i <? total_ports re) && (j <? total_ports re) then Ok (connect C i j) else Err IndexError
           end)
        (block_mat (@b_C X D) false re) conns.
Definition output_of (re st : comps) (conn : string) : res (option (nat * Z)) :=
  match split_colon conn with
  | [_; _; _; _] => Ok None
  | [c; s1; s2] =>
      do i <- of_option ValueError (py_int s1);
      do j <- of_option ValueError (py_int s2);
      do st' <- of_option KeyError (start_of c re);
      do f <- of_option KeyError (free_of c st);
      do p <- py_index f i;
      Ok (Some (st' + p, j))
  | _ => Err ValueError
  end.
Definition ordering (re st : comps) (conns : list string) : res (list nat) :=
  do d <- foldM (fun d conn =>
           do o <- output_of re st conn;
           match o with
           | None => Ok d
           | Some (i, j) => Ok (dict_set Z.eqb j i d)
           end)
        [] conns;
  apply_order (child_orders 0 re) (order_list d (total_ports re)).
Definition filled (re st : comps) (conns : list string) : res buf :=
  do order <- ordering re st conns;
  do C <- wiring re st conns;
  Ok {| b_np := total_ports re; b_C := C;
        b_src := block_vec (@b_src X D) false re;
        b_det := block_vec (@b_det X D) false re;
        b_act := block_vec (@b_act X D) false re;
        b_order := order;
        b_S := block_mat (@b_S X D) x0 re;
        b_del := block_vec (@b_del X D) d0 re |}.

(** What an object fills into the buffers of the network around it: its own set_* methods, which for a
    network call those of its components (network.py:854-993). *)
Fixpoint current (fuel : nat) (s : state) (l : nat) : res buf :=
  match fuel with
  | 0 => Err RuntimeError
  | S f =>
      do o <- get s l;
      match o with
      | OComp _ b => Ok b
      | ONet _ _ cs _ sh =>
          do re <- mapM (fun e => do b <- current f s (snd e); Ok (fst e, b)) cs;
          do st <- mapM (fun e => do b <- stored s (snd e); Ok (fst e, b)) cs;
          filled re st (sh_conns (get_sh s sh))
      end
  end.

(** network.py:302-303 [self.components[name].name = name]. *)
Definition rename (s : state) (l : nat) (n : string) : state :=
  match nth_error (st_objs s) l with Some o => put_obj s l (with_name o n) | None => s end.

(** network.py:279-306 [Network._set_buffers]. *)
Definition refresh (s : state) (l : nat) : res state :=
  do (_, _, _, _, sh) <- get_net s l;
  let x := get_sh s sh in
  match sh_conns x, sh_mods x with
  | [], _ => Ok s
  | _, [] => Ok s
  | _, _ =>
      let conns := map clean_conn (sh_conns x) in
      do cs <- mapM (fun n => do c <- of_option KeyError (assoc String.eqb n (sh_mods x)); Ok (n, c)) (used_names conns);
      let s1 := fold_left (fun s e => rename s (snd e) (fst e)) cs s in
      let s2 := put_sh s1 sh {| sh_mods := sh_mods x; sh_conns := conns; sh_buf := sh_buf x |} in
      do (n, c, _, f, _) <- get_net s2 l;
      let s3 := put_obj s2 l (ONet n c cs f sh) in
      do b0 <- current limit s3 l;
      do b <- check_buf true b0;
      let s4 := put_sh s3 sh {| sh_mods := sh_mods x; sh_conns := conns; sh_buf := Some b |} in
      Ok (put_obj s4 l (ONet n c cs (Some (num_free b)) sh))
  end.

(** ** Statements *)
(** network.py:83-141 [Network(components, connections, name)]; returns the new object. *)
Definition new_net (s : state) (name : option string) (cls : string) (cs : list (string * nat)) (conns : list string) : res (state * nat) :=
  let '(s0, l) := alloc_net s name cls in
  do s1 <- register s0 name l;
  do s2 <- foldM (fun s e => add_comp s l (fst e) (snd e)) s1 cs;
  do (_, _, _, _, sh) <- get_net s2 l;
  let x := get_sh s2 sh in
  do s3 <- refresh (put_sh s2 sh {| sh_mods := sh_mods x; sh_conns := sh_conns x ++ conns; sh_buf := sh_buf x |}) l;
  Ok (s3, l).

(** A new component that is not a network (component.py:38-56). *)
Definition new_comp (s : state) (name : option string) (b : buf) : res (state * nat) :=
  let '(s0, l) := alloc s (OComp name b) in
  do s1 <- register s0 name l;
  do _ <- check_buf false b;
  Ok (s1, l).

(** network.py:179-252 [link]. *)
Definition link_net (s : state) (l : nat) (ports : list parg) : res state :=
  do (_, _, _, _, sh) <- get_net s l;
  let x := get_sh s sh in
  let '(cs, e) := link_strings ports in
  match e with
  | Some e => Err e
  | None => refresh (put_sh s sh {| sh_mods := sh_mods x; sh_conns := sh_conns x ++ cs; sh_buf := sh_buf x |}) l
  end.

(** network.py:331-332: [OrderedDict((t.name, copy(t)) for t in term)]; a term without a name fails
    at network.py:342. *)
Fixpoint copy_terms (s : state) (ts : list nat) (d : list (string * nat)) : res (state * list (string * nat)) :=
  match ts with
  | [] => Ok (s, d)
  | t :: r =>
      do o <- get s t;
      match o with
      | OComp (Some n) b =>
          let '(s1, c) := alloc s (OComp (Some n) b) in
          copy_terms s1 r (dict_set String.eqb n c d)
      | _ => Err TypeError
      end
  end.
(** network.py:321-349 [terminate] with a list of terms; [arg] is the optional [name=]. *)
Definition terminate (s : state) (l : nat) (arg : option string) (ts : list nat) : res (state * nat) :=
  do (own, cls, cs, f, sh) <- get_net s l;
  do n <- of_option AttributeError f;
  if n =? 0 then Err IndexError else
  do (s1, d) <- copy_terms s ts [];
  let nm := copied_name own cls in
  let '(s2, c) := alloc s1 (ONet (Some nm) cls cs f sh) in
  let parts := fold_left (fun p e => dict_set String.eqb (fst e) (snd e) p) d [(nm, c)] in
  let conns := map (fun it => (fst (snd it) ++ ":0:" ++ nm ++ ":" ++ dec_nat (fst it))%string) (combine (seq 0 (length d)) d) in
  do (s3, nw) <- new_net s2 (Some (match arg with Some a => a | None => nm ++ "_terminated" end)%string) "network" parts conns;
  do s4 <- add_comp s3 nw "base" l;
  Ok (s4, nw).
(** network.py:323-330: a single term gives as many terms of its class as there are free ports. *)
Definition new_terms (s : state) (tcls : string) (t : buf) (n : nat) : res (state * list nat) :=
  foldM (fun a nm => do (s1, c) <- new_comp (fst a) (Some nm) t; Ok (s1, snd a ++ [c])) (s, []) (term_names tcls n).

Inductive stmt :=
| SComp (name : option string) (b : buf)                     (* Waveguide(name=...) *)
| SNet (name : option string) (cls : string) (cs : list (string * nat)) (conns : list string)
| SAdd (net : nat) (key : string) (c : nat)                  (* net.key = c *)
| SLink (net : nat) (ports : list parg)                      (* net.link(...) *)
| SCurLink (ports : list parg)                               (* link(...), network.py:1061-1082 *)
| STerm (net : nat) (arg : option string) (ts : list nat)    (* net.terminate([...]) *)
| STermOne (net : nat) (arg : option string) (tcls : string) (t : buf)   (* net.terminate(Term()) *)
| SEnter (net : nat)                                         (* with net: *)
| SExit.                                                     (* the end of a with-block *)

(** network.py:352-360 [unterminate]: [self.base]. *)
Definition unterminate (s : state) (l : nat) : res nat :=
  do (_, _, _, _, sh) <- get_net s l;
  of_option AttributeError (assoc String.eqb "base" (sh_mods (get_sh s sh))).

Definition step (s : state) (p : stmt) : res state :=
  match p with
  | SComp name b => do (s1, _) <- new_comp s name b; Ok s1
  | SNet name cls cs conns => do (s1, _) <- new_net s name cls cs conns; Ok s1
  | SAdd net key c => add_comp s net key c
  | SLink net ports => link_net s net ports
  | SCurLink ports => match st_stack s with nw :: _ => link_net s nw ports | [] => Err AttributeError end
  | STerm net arg ts => do (s1, _) <- terminate s net arg ts; Ok s1
  | STermOne net arg tcls t =>
      do (_, _, _, f, _) <- get_net s net;
      do n <- of_option AttributeError f;
      if n =? 0 then Err IndexError else
      do (s1, ts) <- new_terms s tcls t n;
      do (s2, _) <- terminate s1 net arg ts; Ok s2
  | SEnter net =>
      do _ <- get_net s net;
      Ok {| st_objs := st_objs s; st_sh := st_sh s; st_stack := net :: st_stack s |}
  | SExit =>
      match st_stack s with
      | [] => Err IndexError
      | _ :: r => Ok {| st_objs := st_objs s; st_sh := st_sh s; st_stack := r |}
      end
  end.
Definition run (s : state) (ps : list stmt) : res state := foldM step s ps.
End Obj.
Arguments OComp {X D} name b.
Arguments ONet {X D} name cls cs nfree sh.
Arguments no_shared {X D}.
Arguments SComp {X D} name b.
Arguments SNet {X D} name cls cs conns.
Arguments SAdd {X D} net key c.
Arguments SLink {X D} net ports.
Arguments SCurLink {X D} ports.
Arguments STerm {X D} net arg ts.
Arguments STermOne {X D} net arg tcls t.
Arguments SEnter {X D} net.
Arguments SExit {X D}.
