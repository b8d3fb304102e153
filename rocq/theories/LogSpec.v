(** What the log files of a run are expected to contain (C111).  Independent of how the loggers go about writing them. *)
From Coq Require Import String List ZArith Bool Arith.
From Verif Require Import Base LogModel.
Import ListNotations.
Open Scope list_scope.
Open Scope nat_scope.

(** what a training logs: the value [v] of [t], in epoch [e], after [c] of its steps *)
Definition logged {V} (stats : nat -> nat -> list (string * V)) (e0 epochs total freq e c : nat) (t : string) (v : V) : Prop :=
  e0 <= e < e0 + epochs /\ 1 <= c <= total /\ Nat.divide freq c /\ In (t, v) (stats e c).

(** no two different records of one tag share a step *)
Definition one_value_per_step {V} (log : list (record V)) : Prop :=
  forall r1 r2, In r1 log -> In r2 log -> writer r1 = writer r2 -> tag r1 = tag r2 -> step r1 = step r2 -> r1 = r2.
(** steps never go back in the file *)
Definition in_order {V} (log : list (record V)) : Prop :=
  forall l1 r1 l2 r2 l3, log = l1 ++ r1 :: l2 ++ r2 :: l3 -> (step r1 <= step r2)%Z.

(** a call of CsvLogger.log_model_buffers *)
Record call V := mkCall { c_names : list string; c_epoch : Z; c_completed : Z; c_total : Z; c_mods : list (modl V) }.
Arguments mkCall {V}. Arguments c_names {V}. Arguments c_epoch {V}. Arguments c_completed {V}. Arguments c_total {V}. Arguments c_mods {V}.
(** the rows of one buffer: one for each module that has it *)
Definition rows {V} (name : string) (c : call V) : list (line V) :=
  flat_map (fun m => match dget (attrs m) name with
                     | Some v => [Row (String.append (mname m) (String.append "." name)) (c_epoch c) (c_completed c) (c_total c) v]
                     | None => [] end) (c_mods c).
(** the file of a buffer after a history of calls *)
Definition csv_file {V} (name : string) (before : option (list (line V))) (calls : list (call V)) : option (list (line V)) :=
  match filter (fun c => existsb (String.eqb name) (c_names c)) calls with
  | [] => before
  | cs => Some (match before with Some l => l | None => [Header] end ++ flat_map (rows name) cs)
  end.
