(** What the weights of an MMI say: [says w m n W]. *)
From Coq Require Import Reals.
From Verif Require Import Base MmiModel.
Local Open Scope R_scope.
Local Open Scope list_scope.

(** The numbers of waveguides on both sides, and the complex weight between waveguide [i] on the left and
    waveguide [j] on the right.  No weights: an even splitter. *)
Inductive says : weights -> nat -> nat -> (nat -> nat -> R * R) -> Prop :=
  | says_none : says WNone 1 2 (fun _ _ => (sqrt (1 / 2), 0))
  | says_array m n v : says (WArray [m; n] v) m n (fun i j => v [i; j])
  | says_real m n v : says (WTensor [m; n] v) m n (fun i j => (v [i; j], 0))
  | says_parts m n v : says (WTensor [2; m; n]%nat v) m n (fun i j => (v [0; i; j], v [1; i; j])%nat).
