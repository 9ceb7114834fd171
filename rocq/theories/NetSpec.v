(** Specifications for circuit building.  They mention the data ([buf], [parg], strings) but none
    of the model's functions except Python's [int(s)], [s.split(":")] and [str(n)]. *)
From Verif Require Import Base PyStr NetModel.
From Coq Require Import Permutation Sorted.
Set Implicit Arguments.
Local Open Scope string_scope.
Local Open Scope list_scope.

(** * Chains given to [link] *)

(** One piece "in:name:out"; the first piece may lack "in", the last one "out". *)
Record lpiece := { lp_in : option string; lp_name : string; lp_out : option string }.

Definition opt_list {A} (o : option A) : list A := match o with Some a => [a] | None => [] end.
Definition piece_str (p : lpiece) : string :=
  String.concat ":" (opt_list (lp_in p) ++ [lp_name p] ++ opt_list (lp_out p)).

(** A leading or trailing external port number can be left out, be [None], an int, or a string
    that reads as an int. *)
Inductive renders_ext : option Z -> list parg -> Prop :=
| re_absent : renders_ext None []
| re_none : renders_ext None [PNone]
| re_int z : renders_ext (Some z) [PInt z]
| re_str z s : py_int s = Some z -> renders_ext (Some z) [PStr s].

Definition colon_free (s : string) : Prop := ~ exists a b, s = (a ++ ":" ++ b)%string.

(** Which pieces may lack a port.  (With a single piece and no external number "a:b" reads as
    name "a", port "b".) *)
Record wf_chain (lead : option Z) (ps : list lpiece) (trail : option Z) : Prop := {
  wc_nonempty : ps <> [];
  wc_names : forall p, In p ps -> colon_free (lp_name p)
                 /\ (forall s, lp_in p = Some s -> colon_free s)
                 /\ (forall s, lp_out p = Some s -> colon_free s);
  wc_in : forall i p, nth_error ps i = Some p -> lp_in p = None -> i = 0 /\ lead = None;
  wc_out : forall i p, nth_error ps i = Some p -> lp_out p = None ->
             S i = length ps /\ trail = None /\ lp_in p <> None /\ (1 < length ps \/ lead <> None)
}.

(** What a connection says: wire two component ports together, or give a component port an
    external number. *)
Inductive decl := Wire (n1 p1 n2 p2 : string) | Ext (n p : string) (z : Z).

Definition decl_parts (d : decl) : list string :=
  match d with
  | Wire n1 p1 n2 p2 => [n1; p1; n2; p2]
  | Ext n p z => [n; p; dec_Z z]
  end.
Definition decl_str (d : decl) : string := String.concat ":" (decl_parts d).

(** The meaning of a chain. *)
Fixpoint chain_wires (ps : list lpiece) : list decl :=
  match ps with
  | p :: ((q :: _) as r) =>
      match lp_out p, lp_in q with
      | Some o, Some i => Wire (lp_name p) o (lp_name q) i :: chain_wires r
      | _, _ => chain_wires r
      end
  | _ => []
  end.
Definition chain_lead (lead : option Z) (ps : list lpiece) : list decl :=
  match lead, ps with
  | Some z, p :: _ => match lp_in p with Some i => [Ext (lp_name p) i z] | None => [] end
  | _, _ => []
  end.
Definition chain_trail (trail : option Z) (ps : list lpiece) : list decl :=
  match trail, rev ps with
  | Some z, p :: _ => match lp_out p with Some o => [Ext (lp_name p) o z] | None => [] end
  | _, _ => []
  end.
Definition chain_decls lead ps trail : list decl :=
  chain_wires ps ++ chain_lead lead ps ++ chain_trail trail ps.

(** * Ports of a composed network *)
Section S.
Variables (X D : Type).
Notation buf := (buf X D).

(** Number of ports before a component. *)
Definition ports_before (pre : list (string * buf)) : nat := list_sum (map (fun c => b_np (snd c)) pre).

(** Port [q] of [b] has no partner. *)
Definition unconnected (b : buf) (q : nat) : Prop :=
  forall j, j < b_np b -> b_C b q j = false /\ b_C b j q = false.

(** [fl] lists the unconnected members of [l], in order. *)
Inductive free_list (b : buf) : list nat -> list nat -> Prop :=
| fl_nil : free_list b [] []
| fl_keep q l fl : unconnected b q -> free_list b l fl -> free_list b (q :: l) (q :: fl)
| fl_skip q l fl : ~ unconnected b q -> free_list b l fl -> free_list b (q :: l) fl.

(** Port number [k] of [b], as seen from a parent network, is its port [q]: the k-th free port
    in port order; negative numbers count from the end, as in Python. *)
Definition resolves (b : buf) (k : Z) (q : nat) : Prop :=
  exists fl, free_list b (b_order b) fl
    /\ (0 <= k /\ nth_error fl (Z.to_nat k) = Some q
        \/ k < 0 /\ 0 <= Z.of_nat (length fl) + k
           /\ nth_error fl (Z.to_nat (Z.of_nat (length fl) + k)) = Some q)%Z.

(** Port [k] of the component called [n] is port [p] of the network made of [cs]. *)
Definition names_port (cs : list (string * buf)) (n : string) (k : Z) (p : nat) : Prop :=
  exists pre b post q, cs = pre ++ (n, b) :: post /\ resolves b k q /\ p = ports_before pre + q.

(** The connection string [conn] wires ports [i] and [j]. *)
Definition wires (cs : list (string * buf)) (conn : string) (i j : nat) : Prop :=
  exists n1 s1 k1 n2 s2 k2,
    split_colon conn = [n1; s1; n2; s2] /\ py_int s1 = Some k1 /\ py_int s2 = Some k2
    /\ names_port cs n1 k1 i /\ names_port cs n2 k2 j.

(** The connection string [conn] gives port [p] the external number [z]. *)
Definition numbers (cs : list (string * buf)) (conn : string) (p : nat) (z : Z) : Prop :=
  exists n s k t, split_colon conn = [n; s; t] /\ py_int s = Some k /\ py_int t = Some z
    /\ names_port cs n k p.

(** Ports [i], [j] are connected inside one of the components. *)
Definition inner (cs : list (string * buf)) (i j : nat) : Prop :=
  exists pre n b post i' j', cs = pre ++ (n, b) :: post
    /\ i' < b_np b /\ j' < b_np b /\ b_C b i' j' = true
    /\ i = ports_before pre + i' /\ j = ports_before pre + j'.

(** Every port has at most one partner / exactly one partner, and C is symmetric. *)
Definition sym_C (b : buf) : Prop := forall i j, i < b_np b -> j < b_np b -> b_C b i j = b_C b j i.
Definition at_most_one_partner (b : buf) : Prop :=
  forall i j k, i < b_np b -> j < b_np b -> k < b_np b ->
    b_C b i j = true -> b_C b i k = true -> j = k.
Definition one_partner (b : buf) : Prop :=
  forall i, i < b_np b -> exists j, j < b_np b /\ b_C b i j = true /\
    (forall k, k < b_np b -> b_C b i k = true -> k = j).

(** The port order numbers every port exactly once. *)
Definition order_ok (b : buf) : Prop := Permutation (b_order b) (seq 0 (b_np b)).

(** Flags never overlap. *)
Definition flags_ok (b : buf) : Prop := forall i, i < b_np b ->
  (b_src b i = true -> b_det b i = false /\ b_act b i = false)
  /\ (b_det b i = true -> b_act b i = false).

End S.

Section S2.
Variables (X D : Type).
Notation buf := (buf X D).

(** [ws] lists the port pairs wired by the 4-part connections, in order. *)
Inductive wire_list (cs : list (string * buf)) : list string -> list (nat * nat) -> Prop :=
| wl_nil : wire_list cs [] []
| wl_wire c conns i j ws : wires cs c i j -> wire_list cs conns ws ->
                           wire_list cs (c :: conns) ((i, j) :: ws)
| wl_ext c conns ws : length (split_colon c) <> 4 -> wire_list cs conns ws ->
                      wire_list cs (c :: conns) ws.

Definition endpoints (ws : list (nat * nat)) : list nat := flat_map (fun w => [fst w; snd w]) ws.

(** [n] is the number of ports without a partner. *)
Definition free_count (b : buf) (n : nat) : Prop :=
  exists fl, free_list b (seq 0 (b_np b)) fl /\ length fl = n.

(** [es] lists the external numbers given by the 3-part connections, in order. *)
Inductive ext_list (cs : list (string * buf)) : list string -> list (Z * nat) -> Prop :=
| el_nil : ext_list cs [] []
| el_ext c conns p z es : numbers cs c p z -> ext_list cs conns es ->
                          ext_list cs (c :: conns) ((z, p) :: es)
| el_wire c conns es : length (split_colon c) = 4 -> ext_list cs conns es ->
                       ext_list cs (c :: conns) es.

End S2.

Local Unset Strict Implicit.

(** External numbers 0..k-1, each once, on different ports. *)
Record numbered (es : list (Z * nat)) (np : nat) : Prop := {
  nb_keys : Permutation (map fst es) (map Z.of_nat (seq 0 (length es)));
  nb_vals : NoDup (map snd es);
  nb_lt : forall z p, In (z, p) es -> p < np
}.

Section S3.
Variables (X D : Type).
Notation buf := (buf X D).
Notation comps := (list (string * buf)).

(** Port [p] of the network is port [q] of component [c]. *)
Definition located (cs : comps) (p : nat) (n : string) (c : buf) (q : nat) : Prop :=
  exists pre post, cs = pre ++ (n, c) :: post /\ p = ports_before pre + q /\ q < b_np c.

Definition orders_ok (cs : comps) : Prop := forall n c, In (n, c) cs -> order_ok c.
Definition all_sym (cs : comps) : Prop := forall n c, In (n, c) cs -> sym_C c.

(** [cs] are the components a network uses: those its connections mention, once each. *)
Record sub_components (mods : comps) (conns : list string) (cs : comps) : Prop := {
  sc_once : NoDup (map fst cs);
  sc_from : forall n c, In (n, c) cs -> assoc String.eqb n mods = Some c;
  sc_used : forall n, In n (map fst cs) <->
              py_int n = None /\ exists conn, In conn conns /\ In n (map strip (split_colon conn))
}.

(** A one-port component such as Term, Source or Detector. *)
Record one_port (t : buf) : Prop := {
  op_np : b_np t = 1;
  op_C : b_C t 0 0 = false;
  op_order : b_order t = [0];
  op_flags : flags_ok t
}.

(** * Histories of calls *)

(** The buffers stored under a name. *)
Definition stored (s : nstate X D) (n : string) : option buf :=
  option_map (@o_buf X D) (assoc String.eqb n (ns_mods s)).

(** A run of successful calls. *)
Inductive accepted (step : nstate X D -> nop X D -> nstate X D * option exn) :
  nstate X D -> list (nop X D) -> nstate X D -> Prop :=
| acc_nil s : accepted step s [] s
| acc_cons s o s1 os s2 : step s o = (s1, None) -> accepted step s1 os s2 ->
                          accepted step s (o :: os) s2.

End S3.

(** A connection with a port that is not a number. *)
Definition unreadable (conn : string) : Prop :=
  exists n1 s1 n2 s2, split_colon conn = [n1; s1; n2; s2] /\ (py_int s1 = None \/ py_int s2 = None).
