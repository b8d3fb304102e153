(** Specification of names in a module hierarchy (C107). *)
From Coq Require Import String Ascii List Arith Bool.
From Verif Require Import HierModel.
Import ListNotations.
Local Open Scope string_scope.
Open Scope list_scope.

(** the module reached from [t] by a sequence of attributes *)
Fixpoint reached (t : mtree) (path : list string) : option mtree :=
  match path with
  | [] => Some t
  | k :: path' => match find (fun p : string * mtree => String.eqb (fst p) k) (kids_of t) with Some p => reached (snd p) path' | None => None end
  end.
(** names with dots, as in attribute access *)
Fixpoint dotted (path : list string) : string :=
  match path with [] => "" | [k] => k | k :: path' => (k ++ "." ++ dotted path')%string end.
Definition plain (k : string) : Prop := k <> "" /\ forall s1 s2, k <> (s1 ++ String "." s2)%string.
(** torch's add_module: names are plain, and different within a module *)
Inductive proper : mtree -> Prop :=
| proper_mod : forall i kids, NoDup (map fst kids) -> (forall k c, In (k, c) kids -> plain k /\ proper c) -> proper (Mod i kids).
