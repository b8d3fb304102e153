(** Specification of the gradients of quantized training: what a gradient is, and the functions
    without rounding.  Nothing here refers to the model. *)
From Coq Require Import String List Reals.
Import ListNotations.
Open Scope R_scope.

(** sum of g_k * y_k *)
Fixpoint dot (g y : list R) : R :=
  match g, y with
  | a :: g', b :: y' => a * b + dot g' y'
  | _, _ => 0
  end.

(** the tensor with element [i] replaced *)
Fixpoint put (i : nat) (t : R) (x : list R) : list R :=
  match x, i with
  | [], _ => []
  | _ :: r, O => t :: r
  | a :: r, S i' => a :: put i' t r
  end.

(** [d] is the gradient at [x] of the loss sum_k g_k * f(x)_k: element i is the partial derivative
    with respect to element i *)
Definition is_gradient (f : list R -> list R) (x g d : list R) : Prop :=
  length d = length x /\
  forall i, (i < length x)%nat ->
    derivable_pt_lim (fun t => dot g (f (put i t x))) (nth i x 0) (nth i d 0).

(** clipping to an interval *)
Definition clip (lo hi x : R) : R := if Rle_dec x lo then lo else if Rle_dec hi x then hi else x.

(** DoReFa's weight transform without rounding: tanh normalised by its largest magnitude *)
Definition largest (l : list R) : R := fold_right Rmax 0 (map Rabs l).
Definition dorefa (w : list R) : list R :=
  map (fun x => tanh x / largest (map tanh w)) w.

(** the names PACT treats as clipping values *)
Definition mentions (what name : string) : Prop := exists a b, name = (a ++ what ++ b)%string.
