(** Building circuits: [Network.link], [_set_buffers], [set_C], [set_port_order],
    [Component._set_buffers], [add_component], [terminate].  No proofs in this file. *)
From Verif Require Import Base PyStr.
Set Implicit Arguments.
Local Open Scope string_scope.
Local Open Scope nat_scope.

(** * Network.link (photontorch/networks/network.py:179-252) *)

(** An argument of [link]: [None], a Python int, or a string.  Other types are not modelled. *)
Inductive parg := PNone | PInt (z : Z) | PStr (s : string).

(** A tuple such as ("0","wg","1"); [None] entries come from network.py:211-215. *)
Definition piece := list (option string).

(** network.py:195-199: convert the first argument to an int, or put [None] in front. *)
Definition link_first (ports : list parg) : res (list parg) :=
  match ports with
  | [] => Err IndexError
  | PNone :: _ => Ok ports
  | PInt _ :: _ => Ok ports
  | PStr s :: r => match py_int s with
                   | Some z => Ok (PInt z :: r)
                   | None => Ok (PNone :: ports)
                   end
  end.

(** network.py:201-205: the same for the last argument (possibly the same one). *)
Definition link_last (ports : list parg) : res (list parg) :=
  match ports with
  | [] => Err IndexError
  | _ => match last ports PNone with
         | PNone => Ok ports
         | PInt _ => Ok ports
         | PStr s => match py_int s with
                     | Some z => Ok (removelast ports ++ [PInt z])%list
                     | None => Ok (ports ++ [PNone])%list
                     end
         end
  end.

(** network.py:207: [tuple(p.split(":"))]; an int or None has no [split]. *)
Definition link_split (p : parg) : res piece :=
  match p with
  | PStr s => Ok (map Some (split_colon s))
  | _ => Err AttributeError
  end.

(** ["%s" % x] for a string or None. *)
Definition fmt_opt (o : option string) : string :=
  match o with Some s => s | None => "None" end.

(** ["%s:%s:%s:%s"] and ["%s:%s:%s"] (network.py:224, 238, 249). *)
Definition conn4 (n1 p1 n2 p2 : option string) : string :=
  fmt_opt n1 ++ ":" ++ fmt_opt p1 ++ ":" ++ fmt_opt n2 ++ ":" ++ fmt_opt p2.
Definition conn3 (n p : option string) (z : Z) : string :=
  fmt_opt n ++ ":" ++ fmt_opt p ++ ":" ++ dec_Z z.

(** network.py:223-225: the zip loop.  Returns the connections appended so far and the
    exception of the tuple unpacking, if any. *)
Fixpoint link_pairs (ps : list piece) : list string * option exn :=
  match ps with
  | p :: ((q :: _) as r) =>
      match p, q with
      | [_; n1; p1], [p2; n2; _] =>
          let '(cs, e) := link_pairs r in (conn4 n1 p1 n2 p2 :: cs, e)
      | _, _ => ([], Some ValueError)
      end
  | _ => ([], None)
  end.

(** network.py:210-211: [if ports[0] is None and len(ports[1]) == 2: ports[1] = (None,) + ports[1]]
    on the list of middle pieces (a missing ports[1] is the trailing int or None, whose [len]
    is a TypeError). *)
Definition link_pad_first (p0 : option Z) (mids : list piece) : res (list piece) :=
  match p0 with
  | Some _ => Ok mids
  | None => match mids with
            | [] => Err TypeError
            | m :: r => if length m =? 2 then Ok ((None :: m) :: r) else Ok mids
            end
  end.

(** network.py:213-214, on the last middle piece. *)
Definition link_pad_last (pl : option Z) (mids : list piece) : res (list piece) :=
  match pl with
  | Some _ => Ok mids
  | None => match mids with
            | [] => Err TypeError
            | _ => let m := last mids [] in
                   if length m =? 2 then Ok (removelast mids ++ [m ++ [None]])%list else Ok mids
            end
  end.

Definition parg_int (p : parg) : option Z := match p with PInt z => Some z | _ => None end.

(** network.py:228-250: external connections of the chain. The [RuntimeError] branches are
    kept although [q is None] never holds there when [p] is given. *)
Definition link_ext (p : option Z) (q n : option string) : list string * option exn :=
  match p with
  | None => ([], None)
  | Some z => match q with
              | None => ([], Some RuntimeError)
              | Some _ => ([conn3 n q z], None)
              end
  end.

(** The part of [link] before [self._set_buffers()]: the connection strings appended to
    [self.connections], and the exception if one is raised (the strings appended before the
    exception stay appended).  A single argument [link(3)] or [link(None)] leaves
    [ports = [p, p]] with no middle piece; network.py:207 then gives [[p, p]]. *)
Definition link_strings (ports : list parg) : list string * option exn :=
  match (do ps <- link_first ports; link_last ps) with
  | Err e => ([], Some e)
  | Ok ps =>
      match mapM link_split (removelast (tl ps)) with
      | Err e => ([], Some e)
      | Ok mids =>
          let p0 := parg_int (hd PNone ps) in
          let pl := parg_int (last ps PNone) in
          match (do m1 <- link_pad_first p0 mids; link_pad_last pl m1) with
          | Err e => ([], Some e)
          | Ok m2 =>
              match m2 with
              | [] => ([], Some ValueError)
              | m :: _ =>
                  let '(cs, e) := link_pairs m2 in
                  match e with
                  | Some _ => (cs, e)
                  | None =>
                      match m with
                      | [q; n; _] =>
                          let '(c1, e1) := link_ext p0 q n in
                          match e1 with
                          | Some _ => (cs ++ c1, e1)%list
                          | None =>
                              match last m2 [] with
                              | [_; n'; q'] =>
                                  let '(c2, e2) := link_ext pl q' n' in
                                  (cs ++ c1 ++ c2, e2)%list
                              | _ => (cs ++ c1, Some ValueError)%list
                              end
                          end
                      | _ => (cs, Some ValueError)
                      end
                  end
              end
          end
      end
  end.

(** * Buffers of a component (photontorch/components/component.py:58-105) *)

Section Net.
(** Payload of the scattering matrix and of the delays; irrelevant to the structure. *)
Variables (X D : Type) (x0 : X) (d0 : D).

(** What a component or network stores: number of ports, connection matrix (entries 0/1, as
    booleans), flags per port, port order, and the contributions of [set_S] and [set_delays]. *)
Record buf := {
  b_np    : nat;
  b_C     : nat -> nat -> bool;
  b_src   : nat -> bool;
  b_det   : nat -> bool;
  b_act   : nat -> bool;
  b_order : list nat;
  b_S     : nat -> nat -> X;
  b_del   : nat -> D
}.

(** [free_ports_at] (component.py:80): neither a 1 in the row nor in the column. *)
Definition free_at (b : buf) (i : nat) : bool :=
  negb (existsb (fun j => b_C b i j || b_C b j i) (seq 0 (b_np b))).

(** component.py:81, 85 *)
Definition num_free (b : buf) : nat := length (filter (free_at b) (seq 0 (b_np b))).
Definition terminated (b : buf) : bool := negb (existsb (free_at b) (seq 0 (b_np b))).
(** component.py:82-84 *)
Definition num_src (b : buf) : nat := length (filter (b_src b) (seq 0 (b_np b))).
Definition num_det (b : buf) : nat := length (filter (b_det b) (seq 0 (b_np b))).
Definition num_act (b : buf) : nat := length (filter (b_act b) (seq 0 (b_np b))).

(** [Tensor.sort()] on the port order, as insertion sort. *)
Fixpoint insert (x : nat) (l : list nat) : list nat :=
  match l with
  | [] => [x]
  | y :: r => if x <=? y then x :: l else y :: insert x r
  end.
Definition sort (l : list nat) : list nat := fold_right insert [] l.

(** component.py:93-96: [(sorted != arange).all()]. *)
Definition order_bad (b : buf) : bool :=
  forallb (fun p => negb (fst p =? snd p)) (combine (sort (b_order b)) (seq 0 (b_np b))).

Definition any_port (b : buf) (f : nat -> bool) : bool := existsb f (seq 0 (b_np b)).
Definition all_ports (b : buf) (f : nat -> bool) : bool := forallb f (seq 0 (b_np b)).

(** component.py:87-105: the checks at the end of [_set_buffers].  [comp] is not defined at
    component.py:97, so building the error message raises [NameError]. *)
Definition check_buf (is_network : bool) (b : buf) : res buf :=
  if any_port b (fun i => b_src b i && b_det b i) then Err ValueError else
  if any_port b (fun i => b_src b i && b_act b i) then Err ValueError else
  if any_port b (fun i => b_det b i && b_act b i) then Err ValueError else
  if order_bad b then Err NameError else
  if any_port b (b_act b) && negb (all_ports b (b_act b) || is_network) then Err ValueError
  else Ok b.

(** * Network._set_buffers (network.py:255-306) and the set_* methods it calls *)

(** network.py:255-277: names used in the connections, first occurrence order, skipping
    everything that reads as an int. *)
Definition is_int (s : string) : bool := match py_int s with Some _ => true | None => false end.

Fixpoint dedup (l : list string) (seen : list string) : list string :=
  match l with
  | [] => []
  | s :: r => if existsb (String.eqb s) seen then dedup r seen else s :: dedup r (s :: seen)
  end.

Definition used_names (conns : list string) : list string :=
  dedup (filter (fun s => negb (is_int s)) (flat_map split_colon conns)) [].

(** network.py:296-297 *)
Definition clean_conn (conn : string) : string := join_colon (map strip (split_colon conn)).

Definition comps := list (string * buf).

(** network.py:300-303: [self.components]; an unknown name is a [KeyError]. *)
Definition select_comps (mods : comps) (names : list string) : res comps :=
  mapM (fun n => do b <- of_option KeyError (assoc String.eqb n mods); Ok (n, b)) names.

(** [num_ports] (network.py:75-78) *)
Definition total_ports (cs : comps) : nat := list_sum (map (fun c => b_np (snd c)) cs).

(** Entry of the component blocks: the loops [for comp in components: comp.set_X(X[idx:idx+n])]
    of set_C, set_S, set_delays, set_sources_at, set_detectors_at, set_actions_at
    (network.py:854-887, 899-902).  Vectors: *)
Fixpoint block_vec {A} (sel : buf -> nat -> A) (dflt : A) (cs : comps) (i : nat) : A :=
  match cs with
  | [] => dflt
  | (_, b) :: r => if i <? b_np b then sel b i else block_vec sel dflt r (i - b_np b)
  end.

(** ... and square matrices (zero outside the diagonal blocks). *)
Fixpoint block_mat {A} (sel : buf -> nat -> nat -> A) (dflt : A) (cs : comps) (i j : nat) : A :=
  match cs with
  | [] => dflt
  | (_, b) :: r =>
      if (i <? b_np b) && (j <? b_np b) then sel b i j
      else if (i <? b_np b) || (j <? b_np b) then dflt
      else block_mat sel dflt r (i - b_np b) (j - b_np b)
  end.

(** network.py:904-907 / 956-959: [start_idxs[name]] (names are unique: keys of a dict). *)
Fixpoint start_of (name : string) (cs : comps) : option nat :=
  match cs with
  | [] => None
  | (n, b) :: r => if String.eqb name n then Some 0
                   else option_map (fun s => b_np b + s) (start_of name r)
  end.

(** network.py:908-916 / 960-968: [free_idxs[name]], the free ports in port order. *)
Definition free_ports (b : buf) : list nat := filter (free_at b) (b_order b).
Definition free_of (name : string) (cs : comps) : option (list nat) :=
  option_map free_ports (assoc String.eqb name cs).

(** network.py:918-933 [parse_connection]; [None] for the 3-part form. *)
Definition parse_connection (cs : comps) (conn : string) : res (option (nat * nat)) :=
  match split_colon conn with
  | [c1; s1; c2; s2] =>
      do i1 <- of_option ValueError (py_int s1);
      do i2 <- of_option ValueError (py_int s2);
      if String.eqb c1 c2 && (i1 =? i2)%Z then Err IndexError else
      do f1 <- of_option KeyError (free_of c1 cs);
      if (Z.of_nat (length f1) <=? i1)%Z then Err ValueError else
      do f2 <- of_option KeyError (free_of c2 cs);
      if (Z.of_nat (length f2) <=? i2)%Z then Err ValueError else
      do st1 <- of_option KeyError (start_of c1 cs);
      do p1 <- py_index f1 i1;
      do st2 <- of_option KeyError (start_of c2 cs);
      do p2 <- py_index f2 i2;
      Ok (Some (st1 + p1, st2 + p2))
  | _ :: _ :: _ :: _ :: _ => Err ValueError
  | _ => Ok None
  end.

(** [C[i, j] = C[j, i] = 1.0] (network.py:938) *)
Definition connect (C : nat -> nat -> bool) (i j : nat) : nat -> nat -> bool :=
  fun a b => ((a =? i) && (b =? j)) || ((a =? j) && (b =? i)) || C a b.

(** network.py:889-938 [set_C] *)
Definition net_C (cs : comps) (conns : list string) : res (nat -> nat -> bool) :=
  foldM (fun C conn =>
           do o <- parse_connection cs conn;
           match o with
           | None => Ok C
           | Some (i, j) => Ok (connect C i j)
           end)
        (block_mat b_C false cs) conns.

(** network.py:970-977 [parse_output_connection]; [None] for the 4-part form. *)
Definition parse_output (cs : comps) (conn : string) : res (option (nat * Z)) :=
  match split_colon conn with
  | [_; _; _; _] => Ok None
  | [c; s1; s2] =>
      do i <- of_option ValueError (py_int s1);
      do j <- of_option ValueError (py_int s2);
      do st <- of_option KeyError (start_of c cs);
      do f <- of_option KeyError (free_of c cs);
      do p <- py_index f i;
      Ok (Some (st + p, j))
  | _ => Err ValueError
  end.

(** network.py:979-983 [order_dict] *)
Definition order_dict (cs : comps) (conns : list string) : res (list (Z * nat)) :=
  foldM (fun d conn =>
           do o <- parse_output cs conn;
           match o with
           | None => Ok d
           | Some (i, j) => Ok (dict_set Z.eqb j i d)
           end)
        [] conns.

(** network.py:985-993 [order] *)
Definition order_list (d : list (Z * nat)) (np : nat) : list nat :=
  (flat_map (fun j => match assoc Z.eqb (Z.of_nat j) d with Some i => [i] | None => [] end)
            (seq 0 (length d))
   ++ filter (fun i => negb (existsb (fun e => snd e =? i) d)) (seq 0 np))%list.

(** network.py:945-950: the children's orders, shifted. *)
Fixpoint child_orders (off : nat) (cs : comps) : list nat :=
  match cs with
  | [] => []
  | (_, b) :: r => (map (fun p => off + p) (b_order b) ++ child_orders (off + b_np b) r)%list
  end.

(** network.py:995-997: [port_order[i] = clone[order[i]]]; an index outside is [IndexError]. *)
Definition apply_order (clone order : list nat) : res (list nat) :=
  do new <- mapM (fun idx => of_option IndexError (nth_error clone idx)) order;
  if length clone <? length order then Err IndexError
  else Ok (new ++ skipn (length order) clone)%list.

(** network.py:940-997 [set_port_order] *)
Definition net_order (cs : comps) (conns : list string) : res (list nat) :=
  do d <- order_dict cs conns;
  apply_order (child_orders 0 cs) (order_list d (total_ports cs)).

(** [_set_buffers] of a network whose connections are clean and whose components are selected
    (component.py:58-105 with the Network's set_* methods). *)
Definition net_buf (cs : comps) (conns : list string) : res buf :=
  do order <- net_order cs conns;
  do C <- net_C cs conns;
  check_buf true
    {| b_np := total_ports cs; b_C := C;
       b_src := block_vec b_src false cs;
       b_det := block_vec b_det false cs;
       b_act := block_vec b_act false cs;
       b_order := order;
       b_S := block_mat b_S x0 cs;
       b_del := block_vec b_del d0 cs |}.

(** [Network._set_buffers] (network.py:279-306) of a network with sub-modules [mods] and
    connections [conns]: [None] when it returns early. *)
Definition set_buffers (mods : comps) (conns : list string) : res (option (comps * buf)) :=
  match conns, mods with
  | [], _ => Ok None
  | _, [] => Ok None
  | _, _ =>
      let conns' := map clean_conn conns in
      do cs <- select_comps mods (used_names conns');
      do b <- net_buf cs conns';
      Ok (Some (cs, b))
  end.

(** Using a network that was never built as a component, or terminating it: the buffers do not
    exist ([AttributeError], raised at the first access such as [comp.port_order]). *)
Definition build (mods : comps) (conns : list string) : res buf :=
  do o <- set_buffers mods conns;
  match o with
  | None => Err AttributeError
  | Some (_, b) => Ok b
  end.

(** * Trees of components *)

(** A circuit: a plain component, or [Network(components, connections)]
    (network.py:83-136; all names distinct, the components' own names are [None] or the key). *)
Inductive comp :=
| Leaf (b : buf)
| Net (cs : list (string * comp)) (conns : list string).

(** The buffers of a circuit; exceptions of building sub-circuits come first. *)
Fixpoint compile (c : comp) : res buf :=
  match c with
  | Leaf b => check_buf false b
  | Net cs conns =>
      do mods <- (fix go l := match l with
                              | [] => Ok []
                              | (n, c') :: r => do b <- compile c'; do bs <- go r; Ok ((n, b) :: bs)
                              end) cs;
      build mods conns
  end.

(** * terminate (network.py:309-349) *)

(** ["%i" % i] appended to the class name: ["term_0"] etc. *)
Definition term_names (cls : string) (n : nat) : list string :=
  map (fun i => cls ++ "_" ++ dec_nat i) (seq 0 n).

(** [OrderedDict((t.name, copy(t)) for t in term)]: a repeated name keeps its position and
    takes the last value. *)
Definition term_dict (terms : comps) : comps :=
  fold_left (fun d t => dict_set String.eqb (fst t) (snd t) d) terms [].

(** network.py:337-346 after [term] is a dict: components and connections of the new network.
    [name] is [copied.name] (the network's name or its lower-case class name). *)
Definition terminate_parts (name : string) (b : buf) (terms : comps) : comps * list string :=
  (fold_left (fun d t => dict_set String.eqb (fst t) (snd t) d) terms [(name, b)],
   map (fun it => fst (snd it) ++ ":0:" ++ name ++ ":" ++ dec_nat (fst it))
       (combine (seq 0 (length terms)) terms)).

(** network.py:322-347 with a list of named terms: the new network.  [name] is [copied.name].  The
    [name=] mismatch check of [add_component] cannot fail: every term is stored under its own name. *)
Definition terminate_net (name : string) (b : buf) (terms : comps) : res buf :=
  if num_free b =? 0 then Err IndexError else
  let '(mods, conns) := terminate_parts name b (term_dict terms) in
  build mods conns.

(** network.py:348 [nw.base = self]: the network is a Component, so [__setattr__] (network.py:1028-1031)
    calls [nw.add_component("base", self)], which compares [self.name] (network.py:164-174). *)
Definition set_base (own : option string) (names : list string) (b : buf) : res buf :=
  if existsb (String.eqb "base") names then Err AttributeError else
  match own with
  | Some n => if String.eqb n "base" then Ok b else Err ValueError
  | None => Ok b
  end.

(** network.py:337-339: the name of the copy is [own], the network's [name] attribute, or its
    lower-case class name [cls]. *)
Definition copied_name (own : option string) (cls : string) : string :=
  match own with Some n => n | None => cls end.

(** [terminate(term)] with a list of named terms (network.py:309-349). *)
Definition terminate_list (own : option string) (cls : string) (b : buf) (terms : comps) : res buf :=
  let name := copied_name own cls in
  do b' <- terminate_net name b terms;
  set_base own (name :: map fst terms) b'.

(** [terminate(term)] with one Term of class name [tcls] (lower case), or the default Term. *)
Definition terminate_one (own : option string) (cls tcls : string) (b t : buf) : res buf :=
  terminate_list own cls b (map (fun n => (n, t)) (term_names tcls (num_free b))).

(** * The network as a state machine (C09, C10) *)

(** A component object: its [name] attribute and its buffers.  Objects are not shared. *)
Record cobj := { o_name : option string; o_buf : buf }.

(** The tensors of a network: not created yet, valid, or left half-filled by a [_set_buffers]
    that raised (their contents are then not tracked). *)
Inductive buffers := Unbuilt | Built (b : buf) | Broken.

Record nstate := {
  ns_mods  : list (string * cobj);       (* _modules *)
  ns_conns : list string;                (* self.connections *)
  ns_names : list string;                (* keys of self.components *)
  ns_buf   : buffers
}.

Definition ns_empty : nstate :=
  {| ns_mods := []; ns_conns := []; ns_names := []; ns_buf := Unbuilt |}.

(** [add_component] (network.py:139-176); [add_module] replaces an existing entry. *)
Definition add_component (s : nstate) (name : string) (c : cobj) : nstate * option exn :=
  let s' := {| ns_mods := dict_set String.eqb name c (ns_mods s);
               ns_conns := ns_conns s; ns_names := ns_names s; ns_buf := ns_buf s |} in
  if existsb (String.eqb name) (ns_names s) then (s, Some AttributeError) else
  match o_name c with
  | Some n => if String.eqb n name then (s', None) else (s, Some ValueError)
  | None => (s', None)
  end.

Definition plain (mods : list (string * cobj)) : comps :=
  map (fun m => (fst m, o_buf (snd m))) mods.

Fixpoint takewhile {A} (f : A -> bool) (l : list A) : list A :=
  match l with [] => [] | a :: r => if f a then a :: takewhile f r else [] end.

Definition has_mod (mods : list (string * cobj)) (n : string) : bool :=
  existsb (fun m => String.eqb n (fst m)) mods.

(** network.py:303 [self.components[name].name = name] *)
Definition name_mods (names : list string) (mods : list (string * cobj)) : list (string * cobj) :=
  map (fun m => if existsb (String.eqb (fst m)) names
                then (fst m, {| o_name := Some (fst m); o_buf := o_buf (snd m) |})
                else m) mods.

(** [_set_buffers] on the state (network.py:279-306).  Connections are cleaned in place and
    [self.components] is refilled up to the first unknown name before anything can fail. *)
Definition rebuild (s : nstate) : nstate * option exn :=
  match ns_conns s, ns_mods s with
  | [], _ => (s, None)
  | _, [] => (s, None)
  | _, _ =>
      let conns' := map clean_conn (ns_conns s) in
      let names := takewhile (has_mod (ns_mods s)) (used_names conns') in
      let mods' := name_mods names (ns_mods s) in
      match set_buffers (plain (ns_mods s)) (ns_conns s) with
      | Err e => ({| ns_mods := mods'; ns_conns := conns'; ns_names := names;
                     ns_buf := if forallb (has_mod (ns_mods s)) (used_names conns')
                               then Broken else ns_buf s |}, Some e)
      | Ok None => (s, None)
      | Ok (Some (_, b)) => ({| ns_mods := mods'; ns_conns := conns'; ns_names := names;
                                ns_buf := Built b |}, None)
      end
  end.

(** [link] (network.py:179-252) *)
Definition link (s : nstate) (ports : list parg) : nstate * option exn :=
  let '(cs, e) := link_strings ports in
  let s' := {| ns_mods := ns_mods s; ns_conns := (ns_conns s ++ cs)%list;
               ns_names := ns_names s; ns_buf := ns_buf s |} in
  match e with
  | Some _ => (s', e)
  | None => rebuild s'
  end.

Inductive nop := OAdd (name : string) (c : cobj) | OLink (ports : list parg).
Definition nstep (s : nstate) (o : nop) : nstate * option exn :=
  match o with OAdd n c => add_component s n c | OLink p => link s p end.
Definition nrun (s : nstate) (os : list nop) : nstate := fold_left (fun s o => fst (nstep s o)) os s.

End Net.
Arguments Leaf {X D} b.
