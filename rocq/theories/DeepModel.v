(** Deep copies of bounded parameters (photontorch/nn/nn.py:121-125) and of the parameters of a module
    ([copy.deepcopy], which remembers in [memo] what it has copied).  Tensors keep their numbers in storages;
    a parameter points to one.  Not modelled: gradients (a copy starts without), devices.  No proofs in this file. *)
From Verif Require Import Base.
Set Implicit Arguments.
Local Open Scope list_scope.
Local Open Scope nat_scope.

Section Deep.
Variables (V B : Type).  (* the numbers of a tensor; bounds *)

(** A [BoundedParameter]: where its unbounded weight is stored, its bounds, [requires_grad]. *)
Record bparam := { bp_at : nat; bp_bounds : B; bp_grad : bool }.
(** All storages and all parameters there are; both are named by their positions. *)
Record store := { st_data : list V; st_params : list bparam }.

(** What is read through a parameter, and writing to it in place ([p.data[...] = v], an optimizer step). *)
Definition data_of (st : store) (o : nat) : option V :=
  match nth_error (st_params st) o with Some p => nth_error (st_data st) (bp_at p) | None => None end.
Fixpoint set_nth (l : list V) (i : nat) (v : V) : list V :=
  match l, i with
  | [], _ => []
  | _ :: r, 0 => v :: r
  | a :: r, S i => a :: set_nth r i v
  end.
Definition write (st : store) (o : nat) (v : V) : store :=
  match nth_error (st_params st) o with
  | Some p => {| st_data := set_nth (st_data st) (bp_at p) v; st_params := st_params st |}
  | None => st
  end.

(** nn.py:121-125: [_make_subclass(cls, self.data.clone(), self.requires_grad)], [new.bounds = deepcopy(self.bounds)]. *)
Definition copy_param (st : store) (o : nat) : option (store * nat) :=
  match nth_error (st_params st) o with
  | Some p =>
      match nth_error (st_data st) (bp_at p) with
      | Some v => Some ({| st_data := st_data st ++ [v];
                           st_params := st_params st ++ [{| bp_at := length (st_data st); bp_bounds := bp_bounds p; bp_grad := bp_grad p |}] |},
                        length (st_params st))
      | None => None
      end
  | None => None
  end.

(** [copy.deepcopy(x, memo)]: what [memo] knows is not copied again. *)
Fixpoint lookup (memo : list (nat * nat)) (o : nat) : option nat :=
  match memo with (a, b) :: r => if a =? o then Some b else lookup r o | [] => None end.
Definition deepcopy (st : store) (memo : list (nat * nat)) (o : nat) : option (store * list (nat * nat) * nat) :=
  match lookup memo o with
  | Some o' => Some (st, memo, o')
  | None => match copy_param st o with Some (st', o') => Some (st', (o, o') :: memo, o') | None => None end
  end.

(** The dictionary of parameters of a module, copied entry by entry. *)
Fixpoint copy_dict (st : store) (memo : list (nat * nat)) (m : list (string * nat)) : option (store * list (nat * nat) * list (string * nat)) :=
  match m with
  | [] => Some (st, memo, [])
  | (k, o) :: r =>
      match deepcopy st memo o with
      | Some (st', memo', o') =>
          match copy_dict st' memo' r with
          | Some (st'', memo'', r') => Some (st'', memo'', (k, o') :: r')
          | None => None
          end
      | None => None
      end
  end.
Definition copy_module (st : store) (m : list (string * nat)) : option (store * list (string * nat)) :=
  match copy_dict st [] m with Some (st', _, m') => Some (st', m') | None => None end.
End Deep.
