(** Vocabulary of the statements about the training application (PropertiesLr, PropertiesTracker,
    PropertiesData, PropertiesKd, PropertiesExit, PropertiesLoop).  Nothing here uses the model's
    helper functions. *)
From Coq Require Import List ZArith QArith Bool Arith.
From Verif Require Import Base AppModel.
Import ListNotations.
Open Scope Q_scope.

(** product of a list *)
Definition qprod (l : list Q) : Q := fold_right Qmult 1 l.

(** the gammas of the milestones that are not later than [epoch] *)
Definition gammas_up_to (epoch : Z) (milestones : list Z) (gammas : list Q) : list Q :=
  map snd (filter (fun mg => Z.leb (fst mg) epoch) (combine milestones gammas)).

(** [a] is a strictly worse result than [b]: more non-zero weights; or as many and a lower top1; or
    also the same top1 and a lower top5; or also the same top5 and an earlier epoch *)
Definition worse_result (a b : score) : Prop :=
  (sc_nnz b < sc_nnz a)%Z \/
  (sc_nnz a = sc_nnz b /\
   (sc_top1 a < sc_top1 b \/
    (sc_top1 a == sc_top1 b /\ sc_top5 a < sc_top5 b))).
Definition worse (a b : score) : Prop :=
  worse_result a b \/
  (sc_nnz a = sc_nnz b /\ sc_top1 a == sc_top1 b /\ sc_top5 a == sc_top5 b /\ (sc_epoch a < sc_epoch b)%Z).
