(** Specification of the NCF example, without the model's helpers. *)
From Coq Require Import List Arith Bool Lia QArith.
Import ListNotations.
Open Scope list_scope.
Open Scope nat_scope.

(** a network that scores each pair of user and item by itself *)
Definition pointwise (score : nat -> nat -> Q) (net : list nat -> list nat -> list Q) : Prop :=
  forall us is, length us = length is -> net us is = map (fun p => score (fst p) (snd p)) (combine us is).
(** the items (each once) that score at least as much as [t] *)
Definition rivals (score : nat -> Q) (t : nat) (ds : list nat) : nat := length (filter (fun j => Qle_bool (score t) (score j)) ds).
(** [ds] are the elements of [l], each once *)
Definition elements (l ds : list nat) : Prop := NoDup ds /\ forall x, In x ds <-> In x l.
(** largest value and where it is first reached *)
Definition first_best (hs : list Q) (e : nat) (h : Q) : Prop :=
  nth_error hs e = Some h /\ (forall i x, nth_error hs i = Some x -> (x <= h)%Q) /\ (forall i x, i < e -> nth_error hs i = Some x -> (x < h)%Q).
