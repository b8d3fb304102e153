(** Vocabulary for the properties of the experiment environment. *)
From Coq Require Import String Ascii List Arith Bool.
From Verif Require Import Base EnvModel.
Import ListNotations.
Open Scope list_scope.
Open Scope nat_scope.

(** a path whose last component is [name] *)
Definition names_file (path name : string) : Prop :=
  (path = name \/ exists dir, path = dir ++ "/" ++ name)%string /\ (forall a b, name <> (a ++ "/" ++ b)%string).
(** a name a file can have in a directory *)
Definition proper (name : string) : Prop := name <> ""%string /\ name <> "."%string /\ name <> ".."%string.

(** a schedule after which every process has finished *)
Definition finished (s : lstate) : Prop := forall i, nth i (l_pcs s) Done = Done.
(** process [i] has not begun *)
Definition fresh_process (s : lstate) (i : nat) : Prop := nth i (l_pcs s) Done = UnlinkFile /\ i < length (l_pcs s).
(** a file name usable in a schedule: the process numbers *)
Definition among (n : nat) (sched : list nat) : Prop := Forall (fun i => i < n) sched.
