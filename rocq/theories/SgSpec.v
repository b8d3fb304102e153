(** Vocabulary for the properties of the summary graph. *)
From Coq Require Import String Ascii List Bool Arith.
From Verif Require Import Base SgModel.
Import ListNotations.
Open Scope list_scope.

Definition is_op (g : sgraph) (n : string) : Prop := In n (dkeys (s_ops g)).
Definition has_type (g : sgraph) (n t : string) : Prop := exists m, In (n, mkOp t m) (s_ops g).
(** operation [b] consumes a tensor that [a] produces *)
Definition feeds (g : sgraph) (a b : string) : Prop := exists t, In (a, t) (s_edges g) /\ In (t, b) (s_edges g).
(** the module of the operation has no children, and no other operation is executed in it *)
Definition dedicated (g : sgraph) (n : string) : Prop :=
  exists o, In (n, o) (s_ops g) /\ In (o_module o, false) (s_mods g) /\
    forall n' o', In (n', o') (s_ops g) -> o_module o' = o_module o -> n' = n.
Definition shown (g : sgraph) (only : bool) (n : string) : Prop := is_op g n /\ (only = true -> dedicated g n).

(** a graph as SummaryGraph builds it: unique names; every edge goes from an operation to a tensor or from a tensor to an
    operation; every operation belongs to a module of the model; module_ops_map lists the operations of each module *)
Definition wf_graph (g : sgraph) : Prop :=
  NoDup (dkeys (s_ops g)) /\ NoDup (dkeys (s_mods g)) /\
  (forall x y, In (x, y) (s_edges g) -> (is_op g x /\ ~ is_op g y) \/ (~ is_op g x /\ is_op g y)) /\
  (forall n o, In (n, o) (s_ops g) -> In (o_module o) (dkeys (s_mods g))) /\
  (forall n o, In (n, o) (s_ops g) -> exists l, dget (s_mops g) (o_module o) = Some l /\ NoDup l /\
     forall n', In n' l <-> exists o', In (n', o') (s_ops g) /\ o_module o' = o_module o).

(** [m] is the adjacency map of the operations shown, in the order of their execution *)
Definition is_adjacency (g : sgraph) (only : bool) (m : amap) : Prop :=
  NoDup (dkeys m) /\ (forall n, In n (dkeys m) <-> shown g only n) /\ (exists keep, dkeys m = filter keep (dkeys (s_ops g))) /\
  forall n e, dget m n = Some e ->
    has_type g n (e_type e) /\
    (forall b t, In (b, t) (e_succs e) <-> feeds g n b /\ shown g only b /\ has_type g b t) /\
    (forall b t, In (b, t) (e_preds e) <-> feeds g b n /\ shown g only b /\ has_type g b t).

(** no operation consumes, directly or not, its own result *)
Definition acyclic (g : sgraph) : Prop := exists f : string -> nat, forall a b, is_op g a -> feeds g a b -> f a < f b.
(** [b] is reached from [a] through one or more operations *)
Inductive upstream (g : sgraph) : string -> string -> Prop :=
| UpOne a b : feeds g a b -> upstream g a b
| UpMore a b c : feeds g a b -> upstream g b c -> upstream g a c.
(** an operation that consumes no other operation's result *)
Definition root (g : sgraph) (n : string) : Prop := is_op g n /\ forall a, ~ feeds g a n.
(** chain of [k] operations from a root to [n] *)
Inductive from_root (g : sgraph) : string -> nat -> Prop :=
| FrRoot n : root g n -> from_root g n 0
| FrStep a b k : from_root g a k -> feeds g a b -> from_root g b (S k).
Definition rank_is (g : sgraph) (n : string) (k : nat) : Prop := from_root g n k /\ forall j, from_root g n j -> j <= k.

(** [a] occurs before [b] *)
Definition before (l : list string) (a b : string) : Prop := exists l1 l2 l3, l = l1 ++ a :: l2 ++ b :: l3.
(** [l] lists the modules whose name is the name of an operation, once each, by length of the longest chain of operations
    from a root, and those at the same distance in the order of execution *)
Definition is_topological (g : sgraph) (l : list string) : Prop :=
  NoDup l /\ (forall n, In n l <-> is_op g n /\ In n (dkeys (s_mods g))) /\
  forall a b ka kb, before l a b -> rank_is g a ka -> rank_is g b kb -> ka < kb \/ (ka = kb /\ before (dkeys (s_ops g)) a b).

(* ------------------------------------------------------------------------- *)
(** * The graph of a trace *)
Definition base_name (m : string) : string := if String.eqb m EmptyString then "top_level_op"%string else m.
(** name of an operation of module [m] and type [t] after [k] operations of the same module *)
Definition op_name (k : nat) (m t : string) : string :=
  match k with 0 => base_name m | _ => (base_name m ++ "_" ++ t ++ "_" ++ dec k)%string end.
Definition count_mod (m : string) (l : list tnode) : nat := length (filter (fun n => String.eqb (n_module n) m) l).
Fixpoint names_after (pre nodes : list tnode) : list string :=
  match nodes with [] => [] | n :: r => op_name (count_mod (n_module n) pre) (n_module n) (n_type n) :: names_after (pre ++ [n]) r end.
(** the names of the operations of a trace, in order *)
Definition op_names (nodes : list tnode) : list string := names_after [] nodes.
Definition no_underscore (s : string) : Prop := ~ In "_"%char (list_ascii_of_string s).
(** the types have no underscore, and no module has the name that another module's operation gets *)
Definition no_clash (nodes : list tnode) : Prop :=
  (forall n, In n nodes -> no_underscore (n_type n)) /\
  forall n n', In n nodes -> In n' nodes -> n_module n <> n_module n' ->
    base_name (n_module n) <> base_name (n_module n') /\
    forall t k, base_name (n_module n') <> (base_name (n_module n) ++ "_" ++ t ++ "_" ++ dec k)%string.
Definition tensor_of (nodes : list tnode) (t : string) : Prop := exists n, In n nodes /\ (In t (n_ins n) \/ In t (n_outs n)).
(** a trace: no clash of names, every operation executed in a module of the model, every tensor produced before it is consumed *)
Definition good_trace (nodes : list tnode) (mods : dict bool) : Prop :=
  no_clash nodes /\ NoDup (dkeys mods) /\ (forall n, In n nodes -> In (n_module n) (dkeys mods)) /\
  (forall t, tensor_of nodes t -> ~ In t (op_names nodes)) /\
  (forall i j ni nj t, nth_error nodes i = Some ni -> nth_error nodes j = Some nj -> In t (n_outs ni) -> In t (n_ins nj) -> i < j).

(** the scope of a node of the trace: the class of the model, then for each module entered its class and its name *)
Fixpoint scope_tail (path : list (string * string)) : string :=
  match path with [] => EmptyString | (cls, nm) :: r => ("/" ++ cls ++ "[" ++ nm ++ "]" ++ scope_tail r)%string end.
Definition scope_text (top : string) (path : list (string * string)) : string := (top ++ scope_tail path)%string.
Definition lacks (c : ascii) (s : string) : Prop := ~ In c (list_ascii_of_string s).
