(** Specification of early exits (C99): the modules of a model by path, and the outputs of all its modules in a forward pass. *)
From Coq Require Import String List Bool Arith.
From Verif Require Import Base Lists Names QzrSpec EeModel.
Import ListNotations.
Local Open Scope string_scope.
Open Scope list_scope.

Definition path := list string.
Definition path_dec (p q : path) : {p = q} + {p <> q} := list_eq_dec string_dec p q.
Section Spec.
Variable T : Type.
Notation emod := (emod T).
Fixpoint mod_at (m : emod) (p : path) : option emod :=
  match p with [] => Some m | n :: p => match dget (ekids m) n with Some c => mod_at c p | None => None end end.
(** names of children are attribute names: not empty, without dots, distinct *)
Inductive good : emod -> Prop :=
| good_intro k kids : Forall good_name (map fst kids) -> NoDup (map fst kids) -> (forall n c, In (n, c) kids -> good c) -> good (EMod k kids).
(** no branch points *)
Inductive plain : emod -> Prop :=
| plain_intro k kids : (forall i, k <> KBranch i) -> (forall n c, In (n, c) kids -> plain c) -> plain (EMod k kids).
(** a forward pass of a model: the result, and the output of each module called, in the order in which they return *)
Fixpoint trace (p : path) (m : emod) (x : T) {struct m} : res (T * list (path * T)) :=
  match m with
  | EMod k kids =>
      let call := fun n v => (fix go (l : list (string * emod)) := match l with
                              | [] => Raise AttributeError
                              | (n', c) :: l => if String.eqb n n' then trace (p ++ [n']) c v else go l
                              end) kids in
      do r <- match k with
              | KLeaf f => do y <- f x; Ok (y, [])
              | KNode body =>
                  do r <- foldM (fun st (s : string * nat) => do v <- value (fst st) (snd s); do r <- call (fst s) v; Ok (fst st ++ [fst r], snd st ++ snd r)) body ([x], []);
                  Ok (last (fst r) x, snd r)
              | KBranch i => do r1 <- call "branched_module" x; do r2 <- call "branch_net" (fst r1); Ok (fst r1, snd r1 ++ snd r2)
              | KDp => call "module" x
              end;
      Ok (fst r, snd r ++ [(p, fst r)])
  end.
(** the outputs of the module at [p] when the model runs on the inputs, one after the other *)
Definition outputs_at (m : emod) (p : path) (xs : list T) : list T :=
  flat_map (fun x => match trace [] m x with Ok (_, tr) => map snd (filter (fun qv => if path_dec (fst qv) p then true else false) tr) | Raise _ => [] end) xs.
Definition last_opt {A} (l : list A) : option A := match rev l with [] => None | y :: _ => Some y end.
(** one name is the name of a module inside the other (or the same) *)
Definition is_prefix (p q : path) : Prop := exists r, q = p ++ r.
Definition apart (p q : path) : Prop := ~ is_prefix p q /\ ~ is_prefix q p.
End Spec.
Arguments mod_at {T}. Arguments good {T}. Arguments plain {T}. Arguments trace {T}. Arguments outputs_at {T}.
