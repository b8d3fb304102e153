(** Specification of counting non-zero weights (C108). *)
From Coq Require Import List ZArith Reals.
From Flocq Require Import Core BinarySingleNaN.
Import ListNotations.
Open Scope Z_scope.

Definition weight := binary_float 24 128.
(** all weights are numbers *)
Definition numbers (t : list weight) : Prop := Forall (fun x => is_finite x = true) t.
(** how many of the weights are not 0, and how many there are *)
Fixpoint nonzeros (t : list weight) : Z := match t with [] => 0 | x :: t' => (if Req_EM_T (B2R x) 0 then 0 else 1) + nonzeros t' end.
Definition size (t : list weight) : Z := Z.of_nat (length t).
Fixpoint total (f : list weight -> Z) (params : list (list weight)) : Z := match params with [] => 0 | t :: r => f t + total f r end.
(** the unit of rounding of double precision *)
Definition u : R := (/ 9007199254740992)%R.
