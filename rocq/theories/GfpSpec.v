(** Specification vocabulary for greedy filter pruning. *)
From Coq Require Import String List ZArith QArith Qround Bool Arith.
From Verif Require Import Base Lists StructModel GfpModel.
Import ListNotations.
Open Scope Q_scope.

(** [a] is a better test result than [b]: higher top1, then higher top5, then lower loss. *)
Definition better (a b : score3) : Prop :=
  let '(a1, a2, a3) := a in
  let '(b1, b2, b3) := b in
  b1 < a1 \/ (a1 == b1 /\ (b2 < a2 \/ (a2 == b2 /\ a3 < b3))).

(** The candidates: the parameters with four dimensions. *)
Definition candidates (m : weights) (names : list string) : list string :=
  filter (fun n => match dget m n with Some t => Nat.eqb (length (nd_shape t)) 4 | None => false end) names.

(** [n], with result [sc], is the first candidate with the best result among [names]; [result] gives the results. *)
Definition best_layer (result : string -> option score3) (names : list string) (n : string) (sc : score3) : Prop :=
  exists pre post, names = pre ++ n :: post /\ result n = Some sc /\
    (forall x, In x pre -> exists s, result x = Some s /\ better sc s) /\
    (forall x, In x post -> exists s, result x = Some s /\ ~ better s sc).
