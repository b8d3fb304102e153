(** Vocabulary for the replacement of the module lists. *)
From Coq Require Import String List Bool Arith.
From Verif Require Import Base Names QzrSpec SgModel SgListModel.
Import ListNotations.
Open Scope list_scope.

(** the modules of a model with their paths, in the order of named_modules(), without the lists *)
Fixpoint mpaths (path : list string) (t : mtree) : list (list string * nat) :=
  match t with
  | MMod id kids => (path, id) :: (fix go (l : list (string * mtree)) := match l with [] => [] | (n, c) :: l => mpaths (path ++ [n]) c ++ go l end) kids
  | MList items => (fix go (i : nat) (l : list mtree) := match l with [] => [] | c :: l => mpaths (path ++ [dec i]) c ++ go (S i) l end) 0 items
  end.
Definition is_list (t : mtree) : bool := match t with MList _ => true | MMod _ _ => false end.
(** the names that the modules registered directly in a container get: a child's own name, or those of the elements of a list *)
Definition flat_names (kids : list (string * mtree)) : list string := flat_map (fun nc => map fst (flat (fst nc) (snd nc))) kids.
Definition list_names (kids : list (string * mtree)) : list string := map fst (filter (fun nc => is_list (snd nc)) kids).
(** names of children are non-empty, without dots and distinct, and so are the names after the lists are flattened *)
Inductive good_tree : mtree -> Prop :=
| GMod id kids : Forall good_name (map fst kids) -> NoDup (map fst kids) -> NoDup (flat_names kids ++ list_names kids) ->
    Forall (fun nc => good_tree (snd nc)) kids -> good_tree (MMod id kids)
| GList items : Forall good_tree items -> good_tree (MList items).
