(** Plots (networks/visualize.py, nn/nn.py): which curves are drawn, and how they are labelled.
    Not modelled: matplotlib itself (colours, position of the legend), the layout of graphs. *)
From Coq Require Import QArith Reals.
From Verif Require Import Base PyStr NNModel.
Set Implicit Arguments.
Unset Strict Implicit.
Local Open Scope string_scope.
Local Open Scope list_scope.
Local Open Scope nat_scope.

Section Arrays.
Variable V : Type.

(** numpy arrays: the shape, and the entry at an index. *)
Record array := { shape : list nat; get : list nat -> V }.

(** [np.squeeze]: dimensions of size 1 disappear. *)
Fixpoint unsqueeze (s idx : list nat) : list nat :=
  match s with
  | [] => []
  | n :: s' => if n =? 1 then 0 :: unsqueeze s' idx else hd 0 idx :: unsqueeze s' (tl idx)
  end.
Definition squeeze (a : array) : array :=
  {| shape := filter (fun n => negb (n =? 1)) (shape a); get := fun idx => get a (unsqueeze (shape a) idx) |}.

(** [a.transpose(p)]: axis k of the result is axis p[k] of [a]. *)
Fixpoint place_in (j : nat) (p : list nat) : nat :=
  match p with [] => 0 | k :: p' => if k =? j then 0 else S (place_in j p') end.
Definition transpose (p : list nat) (a : array) : array :=
  {| shape := map (fun k => nth k (shape a) 0) p;
     get := fun idx => get a (map (fun j => nth (place_in j p) idx 0) (seq 0 (length p))) |}.

(** All indices of an array of shape [s], the last axis running fastest. *)
Fixpoint tuples (s : list nat) : list (list nat) :=
  match s with [] => [[]] | n :: s' => flat_map (fun i => map (cons i) (tuples s')) (seq 0 n) end.
(** The columns of [a.reshape(a.shape[0], -1)]; [plt.plot] draws one curve for each. *)
Definition columns (a : array) : list (nat -> V) := map (fun r i => get a (i :: r)) (tuples (tl (shape a))).
Definition convert (f : V -> V) (a : array) : array := {| shape := shape a; get := fun idx => f (get a idx) |}.

(** visualize.py:50-53 [zip(plots, labels)]: curves without a label are left as they are. *)
Fixpoint draw (cols : list (nat -> V)) (labels : list string) : list (option string * (nat -> V)) :=
  match cols, labels with
  | [], _ => []
  | c :: cols', [] => (None, c) :: draw cols' []
  | c :: cols', l :: labels' => (Some l, c) :: draw cols' labels'
  end.
End Arrays.

(** What plot() reads: component names, whether they are [Detector] objects, and how many detector
    ports they have (more than 0 also for networks inside the network). *)
Record part := { c_name : string; c_detector : bool; c_num_det : nat }.
Definition num_detectors (n : list part) : nat := list_sum (map c_num_det n).
(** visualize.py:103-105 *)
Definition detector_names (n : list part) : list string := map c_name (filter c_detector n).

Record environ := { pe_num_t : nat; pe_num_wl : nat; pe_t : list Q; pe_wl : list Q }.

(** visualize.py:106 ["%inm" % wl for wl in 1e9 * network.env.wl] *)
Definition wl_label (wl : Q) : string := (dec_Z (Z.quot (1000000000 * Qnum wl) (Zpos (Qden wl))) ++ "nm")%string.

(** visualize.py:84-95 *)
Definition prefixes : list (Z * string) :=
  [(12%Z, "T"); (9%Z, "G"); (6%Z, "M"); (3%Z, "k"); (0%Z, ""); ((-3)%Z, "m"); ((-6)%Z, "$\mu$"); ((-9)%Z, "n"); ((-12)%Z, "p"); ((-15)%Z, "f")].

Definition bar2 (a b : string) : string := (a ++ " | " ++ b)%string.
Definition batch_label (i : nat) : string := ("batch " ++ dec_nat i)%string.

Record figure (V : Type) := { xlabel : string; xs : list Q; curves : list (option string * (nat -> V)) }.

(** visualize.py:66 *)
Definition single (s : list nat) : bool := match s with [1; 1; _; _] => true | _ => false end.

(** visualize.py:108-169: the array whose columns are drawn, and their labels. *)
Definition labelled (V : Type) (n : list part) (e : environ) (time : bool) (y : array V) : res (array V * list string) :=
  let dets := detector_names n in
  let wls := map wl_label (pe_wl e) in
  let nd := num_detectors n in
  match tl (shape y) with
  | [] => Ok (y, [])
  | [a] =>
      if time && (a =? pe_num_wl e) then Ok (y, wls)
      else if a =? nd then Ok (y, dets)
      else Ok (y, map batch_label (seq 0 a))
  | [a; b] =>
      let y' := transpose [0; 2; 1] y in
      if negb time then Ok (y', flat_map (fun i => map (bar2 (dec_nat i)) dets) (seq 0 b))
      else if (a =? pe_num_wl e) && (b =? nd) then Ok (y, flat_map (fun w => map (bar2 w) dets) wls)
      else if a =? pe_num_wl e then Ok (y', flat_map (fun i => map (bar2 (dec_nat i)) wls) (seq 0 b))
      else if a =? nd then Ok (y', flat_map (fun i => map (bar2 (dec_nat i)) dets) (seq 0 b))
      else Err UnboundLocalError                                    (* labels *)
  | [a; b; c] =>
      if negb time then Err RuntimeError
      else Ok (transpose [0; 3; 1; 2] y,
               flat_map (fun i => flat_map (fun w => map (fun d => bar2 (dec_nat i) (bar2 w d)) dets) wls) (seq 0 c))
  | _ => Err RuntimeError
  end.

(** visualize.py:22-176.  [digits] is [int(np.log10(max(x)) + 0.5)]; [f32] the conversion to float32. *)
Definition plot (V : Type) (f32 : V -> V) (digits : list Q -> res Z) (n : list part) (e : environ) (detected : array V)
  : res (figure V) :=
  if single (shape detected) then Err ValueError
  else
    let y := squeeze (convert f32 detected) in
    match shape y with
    | [] => Err IndexError
    | s0 :: _ =>
      do time <- (if pe_num_t e =? s0 then Ok true else if pe_num_wl e =? s0 then Ok false else Err ValueError);
      let x := if time : bool then pe_t e else pe_wl e in
      do g <- digits x;
      let f := (g / 3 * 3 - 3)%Z in
      do prefix <- of_option KeyError (assoc Z.eqb f prefixes);
      do r <- labelled n e time y;
      Ok {| xlabel := if time then ("Time [" ++ prefix ++ "s]")%string else ("Wavelength [" ++ prefix ++ "m]")%string;
            xs := map (fun v => (v * Qpower 10 (- f))%Q) x;
            curves := draw (columns (fst r)) (snd r) |}
    end.

(** * [_Loss.plot] (nn.py:421-492), rates, latency and warm-up already chosen *)
Definition units : list (string * Z) := [("s", 0%Z); ("ms", 3%Z); ("us", 6%Z); ("ns", 9%Z); ("ps", 12%Z); ("fs", 15%Z)].
(** [unit.replace("us", ...)], for a key of [units]. *)
Definition tex_unit (u : string) : string := if String.eqb u "us" then "$\mu$s" else u.

Record loss_figure := { l_xlabel : string; l_xs : list Q; l_curves : list (nat -> R) }.
Definition loss_plot (x : raw) (latency : Q) (warmup : Z) (bitrate samplerate : Q) (unit : string) : res loss_figure :=
  do pp <- broadcast x x;
  let p := fst pp in
  do l <- samples_of latency samplerate bitrate;
  do w <- samples_of (inject_Z (rint (inject_Z warmup))) samplerate bitrate;
  if (w <? 0)%Z then Err ValueError
  else if (w + l <? 0)%Z then Err ValueError
  else
    let p := drop (Z.to_nat (w + l)) p in
    match assoc String.eqb unit units with
    | None => Err ValueError
    | Some _ =>
        let unit := tex_unit unit in
        do k <- of_option KeyError (assoc String.eqb unit units);
        Ok {| l_xlabel := ("t [" ++ unit ++ "]")%string;
              l_xs := map (fun i => (inject_Z (Z.of_nat i) / samplerate * Qpower 10 k)%Q) (seq 0 (t_len p));
              l_curves := map (fun q i => t_val p i q) (places p) |}
    end.

(** * [graph] (visualize.py:179-199): the nodes and edges of the multigraph *)
(** [conn.split(":")[::2]] *)
Fixpoint every_other {A} (l : list A) : list A :=
  match l with a :: _ :: r => a :: every_other r | l => l end.
(** [G.add_edges_from] with pairs; unknown ends become nodes.  Connections of a network have three or
    four parts (NetModel); anything else is an error here. *)
Definition add_node (ns : list string) (n : string) : list string := if existsb (String.eqb n) ns then ns else ns ++ [n].
Definition graph (components : list string) (connections : list string) : res (list string * list (string * string)) :=
  foldM (fun g c => match every_other (split_colon c) with
                    | [u; v] => Ok (add_node (add_node (fst g) u) v, snd g ++ [(u, v)])
                    | _ => Err RuntimeError
                    end) (fold_left add_node components [], []) connections.
