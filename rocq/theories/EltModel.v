(** Model of distiller/modules/eltwise.py (element-wise modules), over tensors that live in a memory, so that sharing
    between the arguments and in-place updates are visible.

    A tensor is the sizes of its dimensions, from the last to the first, the element at each index (in the same order)
    and whether it is a leaf of the autograd graph that requires a gradient.  The arithmetic on elements is arbitrary
    (floating point: neither associative nor exact).  Simplified: two arguments either are the same tensor or share
    nothing (no overlapping views); one element type; a scalar second argument is a tensor without dimensions. *)
From Coq Require Import String List ZArith Arith Bool.
From Verif Require Import Base.
Import ListNotations.
Local Open Scope string_scope.
Open Scope list_scope.

Section Elt.
Variable V : Type.
Record tensor := mkTn { dims : list nat; el : list nat -> V; leaf_grad : bool }.

(** torch broadcasting of two shapes, innermost dimension first *)
Fixpoint broadcast (a b : list nat) : res (list nat) :=
  match a, b with
  | [], _ => Ok b
  | _, [] => Ok a
  | x :: a', y :: b' =>
      do r <- broadcast a' b';
      if Nat.eqb x y then Ok (x :: r)
      else if Nat.eqb x 1 then Ok (y :: r)
      else if Nat.eqb y 1 then Ok (x :: r)
      else Raise RuntimeError
  end.
(** the element of an operand used for an index of the result *)
Fixpoint pick (s idx : list nat) : list nat :=
  match s, idx with
  | d :: s', i :: idx' => (if Nat.eqb d 1 then 0 else i) :: pick s' idx'
  | _, _ => []
  end.

Definition memory := list tensor.
Definition load (m : memory) (r : nat) : res tensor := match nth_error m r with Some t => Ok t | None => Raise RuntimeError end.
Fixpoint store (m : memory) (r : nat) (t : tensor) : memory :=
  match m, r with [], _ => [] | _ :: m', O => t :: m' | x :: m', S r' => x :: store m' r' t end.

Definition combine (f : V -> V -> V) (s : list nat) (g : bool) (a b : tensor) : tensor :=
  mkTn s (fun i => f (el a (pick (dims a) i)) (el b (pick (dims b) i))) g.

(** a + b: a new tensor, not a leaf *)
Definition op_new (f : V -> V -> V) (m : memory) (a b : nat) : res (memory * nat) :=
  do x <- load m a;
  do y <- load m b;
  do s <- broadcast (dims x) (dims y);
  Ok (m ++ [combine f s false x y], length m).
(** a += b: the elements of a are overwritten; a must have the shape of the result, and must not be a leaf that
    requires a gradient while gradients are recorded *)
Definition op_inplace (grad : bool) (f : V -> V -> V) (m : memory) (a b : nat) : res (memory * nat) :=
  do x <- load m a;
  do y <- load m b;
  if grad && leaf_grad x then Raise RuntimeError
  else
    do s <- broadcast (dims x) (dims y);
    if list_eq_dec Nat.eq_dec s (dims x) then Ok (store m a (combine f s (leaf_grad x) x y), a) else Raise RuntimeError.

(** the loop over input[1:]; on an exception the memory is left as it is then *)
Fixpoint loop (step : memory -> nat -> nat -> res (memory * nat)) (m : memory) (r : nat) (l : list nat) : memory * res nat :=
  match l with
  | [] => (m, Ok r)
  | t :: l' => match step m r t with Ok (m', r') => loop step m' r' l' | Raise e => (m, Raise e) end
  end.

(** eltwise.py:21-36, 39-54, 57-72: EltwiseAdd, EltwiseSub, EltwiseMult (with their operator f) *)
Definition forward (inplace grad : bool) (f : V -> V -> V) (m : memory) (input : list nat) : memory * res nat :=
  match input with
  | [] => (m, Raise IndexError)
  | r :: l => loop (if inplace then op_inplace grad f else op_new f) m r l
  end.

(** eltwise.py:75-85 EltwiseDiv: exactly two arguments *)
Definition forward_div (inplace grad : bool) (f : V -> V -> V) (m : memory) (x y : nat) : memory * res nat :=
  match (if inplace then op_inplace grad f m x y else op_new f m x y) with Ok (m', r) => (m', Ok r) | Raise e => (m, Raise e) end.
End Elt.
