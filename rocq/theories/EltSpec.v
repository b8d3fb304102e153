(** Specification of element-wise operations (C106).  Nothing here refers to the model. *)
From Coq Require Import List Arith Bool.
Import ListNotations.

(** Shapes and indices are written from the last dimension to the first; missing leading dimensions count as 1. *)
(** [s] fits into [b]: each of its sizes is that of [b], or 1 *)
Inductive fits : list nat -> list nat -> Prop :=
| fit_nil : forall b, fits [] b
| fit_cons : forall d s e b, d = e \/ d = 1 -> fits s b -> fits (d :: s) (e :: b).
(** [b] is the common shape of several: all fit, and it has no larger dimension or size than they need *)
Definition common (shapes : list (list nat)) (b : list nat) : Prop :=
  (forall s, In s shapes -> fits s b) /\ (forall c, (forall s, In s shapes -> fits s c) -> length b <= length c) /\
  (forall k e, nth_error b k = Some e -> e <> 1 -> exists s, In s shapes /\ nth_error s k = Some e).
(** the element of an operand of shape [s] for index [i] *)
Fixpoint place (s i : list nat) : list nat :=
  match s, i with d :: s', k :: i' => (if Nat.eqb d 1 then 0 else k) :: place s' i' | _, _ => [] end.
(** a, then op with each of the others, from left to right *)
Definition chain {V} (op : V -> V -> V) (a : V) (l : list V) : V := fold_left op l a.
(** a valid index of a shape *)
Definition inside (i s : list nat) : Prop := Forall2 lt i s.
