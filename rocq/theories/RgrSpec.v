(** Specification of the regularization losses and their gradients (C105).  Nothing here refers to the model. *)
From Coq Require Import String List Reals Arith Bool.
Import ListNotations.
Local Open Scope string_scope.
Open Scope list_scope.
Open Scope R_scope.

Fixpoint total (n : nat) (f : nat -> R) : R := match n with O => 0 | S k => total k f + f k end.

(** A structure of weights: into how many groups they fall, and the group of each position (row-major). *)
Record groups := mkGs { g_count : nat; g_of : nat -> nat }.
(** the sum of the squares in a group, and its length; [eps] keeps it off 0 *)
Definition squares (n : nat) (G : groups) (k : nat) (w : nat -> R) : R := total n (fun p => if Nat.eqb (g_of G p) k then w p * w p else 0).
Definition len (eps : R) (n : nat) (G : groups) (k : nat) (w : nat -> R) : R := sqrt (squares n G k w + eps).
(** group lasso: the strength times the sum of the lengths *)
Definition lasso (eps s : R) (n : nat) (G : groups) (w : nat -> R) : R := s * total (g_count G) (fun k => len eps n G k w).
Definition l1 (s : R) (n : nat) (w : nat -> R) : R := s * total n (fun p => Rabs (w p)).

(** the groups of each type, for weights of a shape *)
Definition rows (c r : nat) : groups := mkGs r (fun p => p / c)%nat.
Definition cols (c : nat) : groups := mkGs c (fun p => p mod c)%nat.
Definition kernels (f c h w : nat) : groups := mkGs (f * c) (fun p => p / (h * w))%nat.
Definition filters (f c h w : nat) : groups := mkGs f (fun p => p / (c * h * w))%nat.
Definition channels (f c h w : nat) : groups := mkGs c (fun p => (p / (h * w)) mod c)%nat.
Definition layer : groups := mkGs 1 (fun _ => 0%nat).

(** [g] is a subgradient of [f] at [w]: the loss lies above its linear approximation *)
Definition subgradient (n : nat) (f : (nat -> R) -> R) (w g : nat -> R) : Prop :=
  forall v, f v >= f w + total n (fun p => g p * (v p - w p)).
(** changing one weight *)
Definition put (w : nat -> R) (p : nat) (x : R) : nat -> R := fun q => if Nat.eqb q p then x else w q.
(** [d] is the derivative of [f] at [w] with respect to weight [p] *)
Definition partial (f : (nat -> R) -> R) (w : nat -> R) (p : nat) (d : R) : Prop := derivable_pt_lim (fun x => f (put w p x)) (w p) d.

(** the structures a group type of a schedule file stands for, with the constant added under the square root *)
Definition structures (eps : R) (ty : string) (shape : list nat) : option (list (R * groups)) :=
  match shape with
  | [r; c] =>
      if String.eqb ty "Rows" then Some [(0, rows c r)]
      else if String.eqb ty "Cols" then Some [(0, cols c)]
      else if String.eqb ty "Rows+Cols" || String.eqb ty "Cols+Rows" then Some [(0, rows c r); (0, cols c)]
      else None
  | [f; c; h; w] =>
      if String.eqb ty "2D" then Some [(0, kernels f c h w)]
      else if String.eqb ty "Filters" || String.eqb ty "3D" then Some [(0, filters f c h w)]
      else if String.eqb ty "Channels" then Some [(eps, channels f c h w)]
      else if String.eqb ty "4D" then Some [(0, layer)]
      else None
  | _ => None
  end.
Fixpoint size (shape : list nat) : nat := match shape with [] => 1%nat | d :: t => (d * size t)%nat end.
(** the loss of all the structures *)
Fixpoint penalty (s : R) (n : nat) (L : list (R * groups)) (w : nat -> R) : R :=
  match L with [] => 0 | (eps, G) :: t => lasso eps s n G w + penalty s n t w end.
