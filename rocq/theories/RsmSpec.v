(** Specification of the learning rates of a training that is interrupted and resumed.  Nothing here
    refers to the model. *)
From Coq Require Import List ZArith Bool Arith.
Import ListNotations.

Section Spec.
Variable V : Type.
(** the LR schedulers of the file in their order: rates of an epoch from the initial rates *)
Variable fs : list (list V -> Z -> list V).
(** the LR policies in their order: which scheduler, scheduled for which epochs *)
Variable pols : list (nat * (Z -> bool)).
(** the initial rates *)
Variable base : list V.

(** the last LR policy scheduled for an epoch *)
Definition last_scheduled (e : Z) : option nat :=
  fold_left (fun (acc : option nat) (p : nat * (Z -> bool)) => if snd p e then Some (fst p) else acc) pols None.

(** the rates in epoch e of a training that is never interrupted: first those of the last LR scheduler of
    the file, then after each epoch those of the last policy scheduled for that epoch *)
Fixpoint rates (e : nat) : list V :=
  match e with
  | O => match rev fs with [] => base | f :: _ => f base 0%Z end
  | S e' => match last_scheduled (Z.of_nat e') with
            | None => rates e'
            | Some i => match nth_error fs i with
                        | None => rates e'
                        | Some f => f base (Z.of_nat (S e'))
                        end
            end
  end.

(** epochs run by sessions that complete ns epochs and begin one more: each starts after the last
    completed epoch *)
Fixpoint epochs_run (start : nat) (ns : list nat) : list nat :=
  match ns with
  | [] => []
  | n :: r => seq start (S n) ++ epochs_run (start + n) r
  end.
(** the epochs at which a session starts *)
Fixpoint starts (start : nat) (ns : list nat) : list nat :=
  match ns with
  | [] => []
  | n :: r => start :: starts (start + n) r
  end.

(** the last LR scheduler of the file was in charge at the end of epoch e *)
Definition last_one_in_charge (e : nat) : Prop :=
  fs = [] \/ last_scheduled (Z.of_nat e) = Some (length fs - 1).
End Spec.
