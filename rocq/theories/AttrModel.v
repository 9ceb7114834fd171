(** Attributes of [photontorch.nn.Module] (photontorch/nn/nn.py:131-160) and the parts of
    [torch.nn.Module] they go through.  No proofs in this file.

    The attribute tables of torch ([_parameters], [_buffers], [_modules]) and the instance's
    [__dict__] are association lists.  Names of read-only properties of the class itself ([env],
    [is_cuda]) are not modelled; other class attributes are given by [cls].  Names are assumed to be
    non-empty and without dots (torch refuses others). *)
From Verif Require Import Base.
Set Implicit Arguments.
Local Open Scope string_scope.
Local Open Scope list_scope.

Section Attr.
(** [U]: what a Python object or tensor contains; [sig w]: the bounded value that the unbounded
    weight [w] stands for (nn.py:100-106, [CompModel.bounded_read]). *)
Variable U : Type.
Variable sig : U -> U.

(** The kinds of values that the code tells apart ([VTensor]: a tensor that is neither a Parameter
    nor a Buffer; [VBound]: a BoundedParameter given by its weight). *)
Inductive val :=
| VNone | VPlain (x : U) | VTensor (x : U) | VBuffer (x : U) | VPar (x : U) | VBound (w : U) | VModule (x : U).

Definition table := list (string * val).
Record mdl := {
  m_par : table;              (* self._parameters *)
  m_buf : table;              (* self._buffers *)
  m_mod : table;              (* self._modules *)
  m_dict : table;             (* self.__dict__ *)
  m_prop : list string }.     (* properties of the subclasses made on the fly (nn.py:147-158) *)

(** Class attributes (methods, [num_ports], ...). *)
Variable cls : string -> option val.

Definition get (n : string) (t : table) : option val := assoc String.eqb n t.
Definition has (n : string) (t : table) : bool := match get n t with Some _ => true | None => false end.
Definition drop (n : string) (t : table) : table := filter (fun e => negb (String.eqb n (fst e))) t.
Definition put (n : string) (v : val) (t : table) : table := dict_set String.eqb n v t.
Definition is_prop (m : mdl) (n : string) : bool := existsb (String.eqb n) (m_prop m).
(** nn.py:142 *)
Definition under (n : string) : string := String "_" n.

Definition with_par (m : mdl) t := {| m_par := t; m_buf := m_buf m; m_mod := m_mod m; m_dict := m_dict m; m_prop := m_prop m |}.
Definition with_buf (m : mdl) t := {| m_par := m_par m; m_buf := t; m_mod := m_mod m; m_dict := m_dict m; m_prop := m_prop m |}.
Definition with_mod (m : mdl) t := {| m_par := m_par m; m_buf := m_buf m; m_mod := t; m_dict := m_dict m; m_prop := m_prop m |}.
Definition with_dict (m : mdl) t := {| m_par := m_par m; m_buf := m_buf m; m_mod := m_mod m; m_dict := t; m_prop := m_prop m |}.
Definition with_prop (m : mdl) t := {| m_par := m_par m; m_buf := m_buf m; m_mod := m_mod m; m_dict := m_dict m; m_prop := t |}.

(** ** Reading *)
(** [torch.nn.Module.__getattr__]: called when the ordinary lookup raises AttributeError. *)
Definition table_read (m : mdl) (n : string) : res val :=
  match get n (m_par m) with
  | Some v => Ok v
  | None => match get n (m_buf m) with
            | Some v => Ok v
            | None => of_option AttributeError (get n (m_mod m))
            end
  end.
(** [getattr(m, n)]: a property first (nn.py:147-151: KeyError without weight, AttributeError if the
    weight is not a BoundedParameter), then the instance, the class, the tables. *)
Definition read (m : mdl) (n : string) : res val :=
  if is_prop m n then
    match get (under n) (m_par m) with
    | None => Err KeyError
    | Some (VBound w) => Ok (VTensor (sig w))
    | Some _ => table_read m n
    end
  else match get n (m_dict m) with
       | Some v => Ok v
       | None => match cls n with Some v => Ok v | None => table_read m n end
       end.
(** [hasattr(m, n)]: only AttributeError means no. *)
Definition hasattr (m : mdl) (n : string) : res bool :=
  match read m n with Ok _ => Ok true | Err AttributeError => Ok false | Err e => Err e end.

(** ** Assigning *)
(** A module and the exception that was raised, if any; changes made before it remain. *)
Definition outcome : Type := mdl * option exn.

(** [torch.nn.Module.register_parameter] and [register_buffer]. *)
Definition register_parameter (m : mdl) (n : string) (v : val) : outcome :=
  match hasattr m n with
  | Err e => (m, Some e)
  | Ok h => if h && negb (has n (m_par m)) then (m, Some KeyError) else (with_par m (put n v (m_par m)), None)
  end.
Definition register_buffer (m : mdl) (n : string) (v : val) : outcome :=
  match hasattr m n with
  | Err e => (m, Some e)
  | Ok h => if h && negb (has n (m_buf m)) then (m, Some KeyError) else (with_buf m (put n v (m_buf m)), None)
  end.

(** [torch.nn.Module.__setattr__]. *)
Definition torch_set (m : mdl) (n : string) (v : val) : outcome :=
  match v with
  | VPar _ | VBound _ =>
      register_parameter
        {| m_par := m_par m; m_buf := drop n (m_buf m); m_mod := drop n (m_mod m); m_dict := drop n (m_dict m);
           m_prop := m_prop m |} n v
  | _ =>
      if has n (m_par m) then
        match v with VNone => register_parameter m n v | _ => (m, Some TypeError) end
      else
        match v with
        | VModule _ =>
            ({| m_par := drop n (m_par m); m_buf := drop n (m_buf m); m_mod := put n v (m_mod m);
                m_dict := drop n (m_dict m); m_prop := m_prop m |}, None)
        | _ =>
            if has n (m_mod m) then
              match v with VNone => (with_mod m (put n v (m_mod m)), None) | _ => (m, Some TypeError) end
            else if has n (m_buf m) then
              match v with
              | VNone | VTensor _ | VBuffer _ => (with_buf m (put n v (m_buf m)), None)
              | _ => (m, Some TypeError)
              end
            else if is_prop m n then (m, Some AttributeError)
            else (with_dict m (put n v (m_dict m)), None)
        end
  end.

(** nn.py:136-160 [Module.__setattr__]. *)
Definition set (m : mdl) (n : string) (v : val) : outcome :=
  match v with
  | VBuffer _ =>
      match register_buffer m n v with
      | (m1, Some e) => (m1, Some e)
      | (m1, None) => torch_set m1 n v
      end
  | VBound _ =>
      match register_parameter m (under n) v with
      | (m1, Some e) => (m1, Some e)
      | (m1, None) => (with_prop m1 (n :: m_prop m1), None)
      end
  | _ => torch_set m n v
  end.

(** [del m.n]: [torch.nn.Module.__delattr__]. *)
Definition delete (m : mdl) (n : string) : outcome :=
  if has n (m_par m) then (with_par m (drop n (m_par m)), None)
  else if has n (m_buf m) then (with_buf m (drop n (m_buf m)), None)
  else if has n (m_mod m) then (with_mod m (drop n (m_mod m)), None)
  else if is_prop m n then (m, Some AttributeError)
  else if has n (m_dict m) then (with_dict m (drop n (m_dict m)), None)
  else (m, Some AttributeError).

(** Programs: assignments and deletions; exceptions are caught by the program. *)
Inductive op := ASet (n : string) (v : val) | ADel (n : string).
Definition step (m : mdl) (o : op) : outcome :=
  match o with ASet n v => set m n v | ADel n => delete m n end.
Definition run (m : mdl) (os : list op) : mdl := fold_left (fun x o => fst (step x o)) os m.

(** A new module. *)
Definition empty : mdl := {| m_par := []; m_buf := []; m_mod := []; m_dict := []; m_prop := [] |}.

(** [list(m.named_parameters(recurse=False))]: all that are not None (simplified: a Parameter that is
    registered under two names is listed twice; torch lists it once). *)
Definition parameters (m : mdl) : table :=
  filter (fun e => match snd e with VNone => false | _ => true end) (m_par m).

(** ** The constructors of the components, as far as they set attributes *)
(** component.py:45-78: attributes that every component has ([x]: some content). *)
Definition component_ops (x : U) : list op :=
  [ASet "device" (VPlain x); ASet "name" (VPlain x); ASet "_env" VNone;
   ASet "C" (VBuffer x); ASet "sources_at" (VBuffer x); ASet "detectors_at" (VBuffer x);
   ASet "actions_at" (VBuffer x); ASet "port_order" (VBuffer x); ASet "free_ports_at" (VBuffer x);
   ASet "terminated" (VPlain x); ASet "num_sources" (VPlain x); ASet "num_detectors" (VPlain x);
   ASet "num_actions" (VPlain x); ASet "num_free_ports" (VPlain x)].
Definition floats (l : list string) (x : U) : list op := List.map (fun n => ASet n (VPlain x)) l.
Definition weight (trainable : bool) (n : string) (x : U) : op := ASet n (if trainable then VPar x else VBuffer x).
(** directionalcouplers.py:47-59 and 140-149; [w]: the weight of coupling [x]. *)
Definition bounded (trainable : bool) (n : string) (w x : U) : op := ASet n (if trainable then VBound w else VBuffer x).

(** waveguides.py:60-70 *)
Definition waveguide_ops (x : U) (t : bool) : list op :=
  component_ops x ++ floats ["neff"; "wl0"; "ng"; "length"; "loss"; "trainable"] x ++ [weight t "phase" x].
Definition coupler_ops (w x : U) (t : bool) : list op := component_ops x ++ [bounded t "coupling" w x].
(** directionalcouplers.py:126-149 *)
Definition coupler_length_ops (w x : U) (tp tc : bool) : list op :=
  component_ops x ++ floats ["loss"; "neff"; "wl0"; "ng"; "length"; "trainable_phase"; "trainable_coupling"] x
  ++ [weight tp "phase" x; bounded tc "coupling" w x].
(** mirrors.py:41-48: a BoundedParameter whether trainable or not (only [requires_grad] differs). *)
Definition mirror_ops (w x : U) (t : bool) : list op := component_ops x ++ [ASet "R" (VBound w)].
(** mmis.py:76-83; mzis.py:68-80; soas.py:49-54 and 149-162 *)
Definition mmi_ops (x : U) (t : bool) : list op := ASet "num_ports" (VPlain x) :: component_ops x ++ [weight t "weights" x].
Definition mzi_ops (x : U) (t : bool) : list op :=
  component_ops x ++ floats ["ng"; "neff"; "length"; "loss"; "wl0"] x ++ [weight t "phi" x; weight t "theta" x].
Definition linear_soa_ops (x : U) (t : bool) : list op := component_ops x ++ [weight t "amplification" x].
Definition soa_ops (x : U) (t : bool) : list op :=
  component_ops x ++ floats ["startup_time"] x ++ [weight t "amplification" x].
End Attr.
Arguments VNone {U}.
Arguments ADel {U} n.
