(** Vocabulary for the properties of the lottery ticket, the directives and the progress collectors. *)
From Coq Require Import String List ZArith QArith Bool Arith.
From Verif Require Import Base Names SchedModel LotModel.
Import ListNotations.
Open Scope nat_scope.

(** the winning ticket: the initial weight where the pruned network kept one, zero where it did not *)
Definition is_ticket (init pruned t : tensor) : Prop :=
  length t = length init /\
  forall i, i < length init ->
    (nth i pruned 0 == 0 -> nth i t 0 == 0)%Q /\ (~ nth i pruned 0 == 0 -> nth i t 0 == nth i init 0)%Q.
(** the mask that says which weights the pruned network kept *)
Definition is_mask_of (pruned m : tensor) : Prop :=
  length m = length pruned /\
  forall i, i < length pruned ->
    (nth i pruned 0 == 0 -> nth i m 0 == 0)%Q /\ (~ nth i pruned 0 == 0 -> nth i m 0 == 1)%Q.
(** zero wherever the pruned network is *)
Definition zero_where_pruned (pruned t : tensor) : Prop :=
  forall i, i < length pruned -> (nth i pruned 0 == 0 -> nth i t 0 == 0)%Q.

(** the module at a path of child positions *)
Fixpoint at_path (t : mtree) (path : list nat) : option mtree :=
  match path with
  | [] => Some t
  | i :: path =>
      match nth_error (match t with Dropout _ ch => ch | Module ch => ch end) i with
      | Some c => at_path c path
      | None => None
      end
  end.
Definition is_dropout (t : mtree) : bool := match t with Dropout _ _ => true | Module _ => false end.
Definition prob (t : mtree) : option Q := match t with Dropout p _ => Some p | Module _ => None end.
(** no module on the way to the end of the path is a dropout layer *)
Fixpoint outside_dropout (t : mtree) (path : list nat) : Prop :=
  match path with
  | [] => True
  | i :: path => is_dropout t = false /\
      match nth_error (match t with Dropout _ ch => ch | Module ch => ch end) i with
      | Some c => outside_dropout c path
      | None => True
      end
  end.
