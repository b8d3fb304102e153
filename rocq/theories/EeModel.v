(** Model of early exits (distiller/early_exit.py, distiller/modules/topology.py [BranchPoint]): attaching exits to the modules
    of a model, forward passes, collecting and deleting the outputs of the exits.

    A model is a tree of modules; a module is an operation, or runs its children in a straight line (each on a value computed
    before), or is a branch point, or a DataParallel wrapper (on one device: it calls its module).  No module object is used in two
    places.  Branch points are objects: the numbers stand for their identities, in which the cached outputs are kept.  A forward
    pass that raises changes nothing here. *)
From Coq Require Import String Ascii List Bool Arith.
From Verif Require Import Base Lists Names QzrModel.
Import ListNotations.
Local Open Scope string_scope.
Open Scope list_scope.

Section Ee.
Variable T : Type.

Inductive ekind :=
| KLeaf (f : T -> res T)
| KNode (body : list (string * nat))          (* call the child on the value with this number; 0: the input *)
| KBranch (i : nat)
| KDp.
Inductive emod := EMod (k : ekind) (kids : list (string * emod)).
Definition ekids (m : emod) : list (string * emod) := match m with EMod _ l => l end.
Definition ekd (m : emod) : ekind := match m with EMod k _ => k end.

(** topology.py:21-38: [BranchPoint(m, b)] *)
Definition branch_point (i : nat) (m b : emod) : emod := EMod (KBranch i) [("branched_module", m); ("branch_net", b)].

(** a forward pass: the result, and what was assigned to the attribute output of which branch point, in order (topology.py:34-37) *)
Definition value (vals : list T) (i : nat) : res T := match nth_error vals i with Some v => Ok v | None => Raise NameError end.
Fixpoint run (m : emod) (x : T) {struct m} : res (T * list (nat * T)) :=
  match m with
  | EMod k kids =>
      let call := fun n v => (fix go (l : list (string * emod)) := match l with
                              | [] => Raise AttributeError
                              | (n', c) :: l => if String.eqb n n' then run c v else go l
                              end) kids in
      match k with
      | KLeaf f => do y <- f x; Ok (y, [])
      | KNode body =>
          do r <- foldM (fun st (s : string * nat) => do v <- value (fst st) (snd s); do r <- call (fst s) v; Ok (fst st ++ [fst r], snd st ++ snd r)) body ([x], []);
          Ok (last (fst r) x, snd r)
      | KBranch i => do r1 <- call "branched_module" x; do r2 <- call "branch_net" (fst r1); Ok (fst r1, snd r1 ++ snd r2 ++ [(i, fst r2)])
      | KDp => call "module" x
      end
  end.

(** torch.nn.Module.named_modules, and early_exit.py:69-74 [_find_module] *)
Fixpoint named_modules (prefix : string) (m : emod) {struct m} : list (string * emod) :=
  match m with
  | EMod k kids => (prefix, m) :: (fix go (l : list (string * emod)) := match l with
                                   | [] => []
                                   | (n, c) :: l => named_modules (sub_name prefix n) c ++ go l
                                   end) kids
  end.
Definition find_module (m : emod) (n : string) : option emod := option_map snd (find (fun nm => String.eqb (fst nm) n) (named_modules "" m)).
(** early_exit.py:77-81 *)
Definition split_module_name (n : string) : string * string := (join_dot (removelast (split_dot n)), last (split_dot n) "").

(** [parent_module.__setattr__(node_name, m)] for the module with this name (in place of the child of that name); the name is
    looked up along the tree *)
Fixpoint set_module (m : emod) (p : list string) (new : emod) {struct p} : emod :=
  match p with
  | [] => new
  | n :: p => EMod (ekd m) (map (fun nc => (fst nc, if String.eqb n (fst nc) then set_module (snd nc) p new else snd nc)) (ekids m))
  end.

(** the manager (its exit points), the model, the outputs cached in the branch points, the number of objects made *)
Record sys := mkSys { s_points : list string; s_model : emod; s_outs : nat -> option T; s_next : nat }.
Definition set_out (o : nat -> option T) (i : nat) (v : option T) : nat -> option T := fun j => if Nat.eqb j i then v else o j.
Definition add_point (s : sys) (n : string) : sys := mkSys (s_points s ++ [n]) (s_model s) (s_outs s) (s_next s).
(** early_exit.py:28-39 [attach_exits]: what is there afterwards, and the exception.  A module found has its parent. *)
Definition attach_one (s : sys) (n : string) (b : emod) : sys * option exn :=
  let s := add_point s n in
  match find_module (s_model s) n with
  | None => (s, Some AssertionError)
  | Some r => (mkSys (s_points s) (set_module (s_model s) (split_dot n) (branch_point (s_next s) r b)) (set_out (s_outs s) (s_next s) None) (S (s_next s)), None)
  end.
Fixpoint attach_exits (s : sys) (exits : list (string * emod)) : sys * option exn :=
  match exits with
  | [] => (s, None)
  | (n, b) :: l => match attach_one s n b with (s, None) => attach_exits s l | r => r end
  end.

(** early_exit.py:84-96 [_get_branch_point_module] *)
Definition get_branch (m : emod) (n : string) : res emod :=
  let (pn, node) := split_module_name n in
  match find_module m pn with
  | None => Raise AttributeError
  | Some p =>
      match dget (ekids p) node with
      | Some c => Ok c
      | None =>
          match ekd p with
          | KDp => match dget (ekids p) "module" with
                   | Some q => match dget (ekids q) node with
                               | Some c => match ekd c with KBranch _ => Ok c | _ => Raise AssertionError end
                               | None => Raise AttributeError
                               end
                   | None => Raise AttributeError
                   end
          | _ => Raise AttributeError
          end
      end
  end.
(** lines 41-52 *)
Definition get_exits_outputs (s : sys) : res (list T) :=
  foldM (fun acc n => do c <- get_branch (s_model s) n;
                      match ekd c with
                      | KBranch i => match s_outs s i with Some y => Ok (acc ++ [y]) | None => Raise AssertionError end
                      | _ => Raise AttributeError
                      end) (s_points s) [].
(** lines 54-65; assigning to another module's attribute has no effect here *)
Definition set_outs (s : sys) (o : nat -> option T) : sys := mkSys (s_points s) (s_model s) o (s_next s).
Definition delete_exits_outputs (s : sys) : res sys :=
  foldM (fun s n => do c <- get_branch (s_model s) n;
                    Ok (match ekd c with KBranch i => set_outs s (set_out (s_outs s) i None) | _ => s end)) (s_points s) s.
Definition forward (s : sys) (x : T) : res (sys * T) :=
  do r <- run (s_model s) x;
  Ok (set_outs s (fold_left (fun o iy => set_out o (fst iy) (Some (snd iy))) (snd r) (s_outs s)), fst r).
(** distiller/models/cifar10/resnet_cifar_earlyexit.py:67-72: the forward function of the early-exit models *)
Definition ee_forward (s : sys) (x : T) : res (sys * list T) :=
  do s <- delete_exits_outputs s;
  do r <- forward s x;
  do ys <- get_exits_outputs (fst r);
  Ok (fst r, ys ++ [snd r]).
End Ee.
Arguments EMod {T}. Arguments KLeaf {T}. Arguments KNode {T}. Arguments KBranch {T}. Arguments KDp {T}.
Arguments ekids {T}. Arguments ekd {T}. Arguments branch_point {T}. Arguments run {T}. Arguments value {T}.
Arguments named_modules {T}. Arguments find_module {T}. Arguments set_module {T}. Arguments mkSys {T}.
Arguments s_points {T}. Arguments s_model {T}. Arguments s_outs {T}. Arguments s_next {T}. Arguments set_out {T}. Arguments add_point {T}.
Arguments attach_one {T}. Arguments attach_exits {T}. Arguments get_branch {T}. Arguments get_exits_outputs {T}. Arguments set_outs {T}. Arguments delete_exits_outputs {T}.
Arguments forward {T}. Arguments ee_forward {T}.
