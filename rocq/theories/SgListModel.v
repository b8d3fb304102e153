(** Model of _to_distiller_modulelist (distiller/summary_graph.py:804-837): the replacement of nn.ModuleList in the clone that
    is traced, and the map from the names of the clone to those of the original model.

    Simplifications: a module is an identity and its children; no module has a plain attribute named like an element of one of
    its lists; children are converted before their parent (the order decides only which of several exceptions is raised). *)
From Coq Require Import String List Bool Arith.
From Verif Require Import Base Names QzrModel SgModel.
Import ListNotations.
Open Scope list_scope.

(** a module (identity, children), or an nn.ModuleList, whose elements have the names '0', '1', ... *)
Inductive mtree := MMod (id : nat) (kids : list (string * mtree)) | MList (items : list mtree).

(** _DistillerModuleList.append and extend, 717-741: the modules registered in the parent, in order.  _name_for_idx, 717-718 *)
Fixpoint flat (name : string) (t : mtree) : list (string * mtree) :=
  match t with
  | MMod _ _ => [(name, t)]
  | MList items => (fix go (i : nat) (l : list mtree) : list (string * mtree) :=
      match l with [] => [] | x :: l => flat (name ++ "_" ++ dec i)%string x ++ go (S i) l end) 0 items
  end.
(** the container's _modules and the names of its plain attributes.  nn.Module.add_module: KeyError if an attribute that is not a
    module has the name *)
Definition mstate := (dict mtree * list string)%type.
Definition add_module (st : mstate) (nt : string * mtree) : res mstate :=
  let (n, t) := nt in
  if smem n (snd st) && negb (dmem (fst st) n) then Raise KeyError else Ok (dset (fst st) n t, snd st).
(** the loop of convert_container, 816-823.  setattr of a module replaces an attribute; setattr of anything else on the name of a
    module is a TypeError *)
Definition convert_child (st : mstate) (nt : string * mtree) : res mstate :=
  let (n, t) := nt in
  match t with
  | MMod _ _ => Ok (dset (fst st) n t, filter (fun x => negb (String.eqb x n)) (snd st))
  | MList _ => do st <- foldM add_module (flat n t) st;
               if dmem (fst st) n then Raise TypeError else Ok (fst st, n :: snd st)
  end.
Definition convert_kids (kids : list (string * mtree)) : res (list (string * mtree)) := do st <- foldM convert_child kids ([], []); Ok (fst st).
(** convert_container, 810-828 *)
Fixpoint convert (t : mtree) : res mtree :=
  match t with
  | MMod id kids =>
      do kids <- (fix go (l : list (string * mtree)) : res (list (string * mtree)) :=
                    match l with [] => Ok [] | (n, c) :: l => do c <- convert c; do r <- go l; Ok ((n, c) :: r) end) kids;
      do kids <- convert_kids kids;
      Ok (MMod id kids)
  | MList items =>
      do items <- (fix go (l : list mtree) : res (list mtree) := match l with [] => Ok [] | c :: l => do c <- convert c; do r <- go l; Ok (c :: r) end) items;
      Ok (MList items)
  end.
(** _named_modules_with_duplicates, 794-802, without the module lists themselves *)
Fixpoint modules_of (prefix : string) (t : mtree) : list (string * nat) :=
  match t with
  | MMod id kids => (prefix, id) :: (fix go (l : list (string * mtree)) := match l with [] => [] | (n, c) :: l => modules_of (sub_name prefix n) c ++ go l end) kids
  | MList items => (fix go (i : nat) (l : list mtree) := match l with [] => [] | c :: l => modules_of (sub_name prefix (dec i)) c ++ go (S i) l end) 0 items
  end.
(** OrderedDict(pairs) *)
Definition to_dict {A} (l : list (string * A)) : dict A := fold_left (fun d nv => dset d (fst nv) (snd nv)) l [].
(** 829-835 *)
Definition to_distiller_modulelist (t : mtree) : res (mtree * dict string) :=
  let orig := dkeys (to_dict (modules_of EmptyString t)) in
  do t' <- convert t;
  Ok (t', to_dict (combine (dkeys (to_dict (modules_of EmptyString t'))) orig)).
