(** The constructor of MMIs (photontorch/components/mmis.py:45-89): from the weights it is given to the
    scattering matrix.  Conversions to the default floating type, devices and gradients are not modelled.
    No proofs in this file. *)
From Coq Require Import QArith Reals.
From Verif Require Import Base NetModel SimModel CompModel.
Set Implicit Arguments.
Local Open Scope R_scope.
Local Open Scope list_scope.

(** The argument [weights]: absent, a numpy array (of complex numbers, the imaginary parts of a real array
    being 0), or a real torch tensor.  [v idx] is the entry at the index [idx]. *)
Inductive weights :=
  | WNone
  | WArray (sh : list nat) (v : list nat -> R * R)
  | WTensor (sh : list nat) (v : list nat -> R).

(** [stack([a, b], 0)] of tensors of the same shape *)
Definition stack2 (a b : list nat -> R) : list nat -> R := fun idx =>
  match idx with i :: r => if (i =? 0)%nat then a r else b r | [] => 0 end.

(** mmis.py:57-59 *)
Definition given (w : weights) : weights :=
  match w with WNone => WArray [1; 2]%nat (fun _ => (sqrt (5 / 10), 0)) | _ => w end.
Definition shape (w : weights) : list nat := match w with WNone => [] | WArray sh _ | WTensor sh _ => sh end.

(** mmis.py:61-76: the stored tensor and its shape. *)
Definition mmi_weights (w : weights) : res (list nat * (list nat -> R)) :=
  let w := given w in
  if negb (length (shape w) =? 2)%nat && negb (length (shape w) =? 3)%nat then Err ValueError else
  let (sh, v) := match w with
                 | WNone => ([], fun _ => 0)
                 | WArray sh v => (2%nat :: sh, stack2 (fun i => fst (v i)) (fun i => snd (v i)))
                 | WTensor sh v => (sh, v)
                 end in
  let (sh, v) := if (length sh =? 2)%nat then (2%nat :: sh, stack2 v (fun _ => 0)) else (sh, v) in
  match sh with
  | [_; _; _] => Ok (sh, v)
  | _ => Err ValueError  (* too many values to unpack *)
  end.

(** mmis.py:77-83 and component.py:58-107: the buffers are made and checked when [num_ports] is known; a
    component without ports is rejected (NetModel.check_buf). *)
Definition mmi_new (w : weights) : res (list nat * (list nat -> R)) :=
  do t <- mmi_weights w;
  match fst t with
  | [_; m; n] => do _ <- check_buf false (mmi m n (fun _ _ => (0, 0))); Ok t
  | _ => Err ValueError
  end.

(** mmis.py:85-89: assigning a tensor of shape [(k, 1, m, n)] to a block of shape [(2, wavelengths, m, n)];
    torch repeats a first axis of length 1 and refuses every other length but 2. *)
Definition mmi_set_S (t : list nat * (list nat -> R)) : res (net R) :=
  match fst t with
  | [k; m; n] =>
      if (k =? 2)%nat then Ok (mmi m n (fun i j => (snd t [0; i; j], snd t [1; i; j])%nat))
      else if (k =? 1)%nat then Ok (mmi m n (fun i j => (snd t [0; i; j], snd t [0; i; j])%nat))
      else Err RuntimeError
  | _ => Err RuntimeError
  end.

(** The whole way, up to the initialized component. *)
Definition mmi_of (w : weights) : res (net R) := do t <- mmi_new w; mmi_set_S t.
