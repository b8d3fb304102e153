(** Model of the parts of SummaryGraph.__init__ (distiller/summary_graph.py) that follow and precede the construction of the graph:
    the merging of padding and average pooling, and the work-around for the names of operations before a dropout.

    Simplifications: as in SgModel.v; the attributes of the operations are not modelled (the merged operation keeps those of the
    pooling). *)
From Coq Require Import String Ascii List Bool Arith.
From Verif Require Import Base Names SgModel.
Import ListNotations.
Open Scope list_scope.

(** an operation with 'type', 'module-name', 'inputs' and 'outputs'; __create_op, 235-243 *)
Record pop := mkPop { p_type : string; p_mod : string; p_ins : list string; p_outs : list string }.
(** self.ops, self.edges, self.module_ops_map *)
Record pgraph := mkPg { g_ops : dict pop; g_edges : list (string * string); g_mops : dict (list string) }.

(** __add_input / __add_output, 245-257: an identifier is appended unless it is already there *)
Definition add_id (l : list string) (x : string) : list string := if smem x l then l else l ++ [x].
(** the loop over graph.nodes(), 122-191 *)
Definition add_pnode (g : pgraph) (n : tnode) : pgraph :=
  let same := match dget (g_mops g) (n_module n) with Some l => l | None => [] end in
  let base := if String.eqb (n_module n) EmptyString then "top_level_op"%string else n_module n in
  let name := match same with [] => base | _ => (base ++ "_" ++ n_type n ++ "_" ++ dec (length same))%string end in
  mkPg (dset (g_ops g) name (mkPop (n_type n) (n_module n) (fold_left add_id (n_ins n) []) (fold_left add_id (n_outs n) [])))
       (g_edges g ++ map (fun t => (t, name)) (n_ins n) ++ map (fun t => (name, t)) (n_outs n))
       (dset (g_mops g) (n_module n) (same ++ [name])).
Definition build_pgraph (nodes : list tnode) : pgraph := fold_left add_pnode nodes (mkPg [] [] []).

(** l.index(x): ValueError when absent *)
Definition edge_eqb (a b : string * string) : bool := String.eqb (fst a) (fst b) && String.eqb (snd a) (snd b).
Fixpoint edge_index (x : string * string) (l : list (string * string)) : res nat :=
  match l with [] => Raise ValueError | y :: l => if edge_eqb x y then Ok 0 else do i <- edge_index x l; Ok (S i) end.
(** l.remove(x): the first occurrence; ValueError when absent *)
Fixpoint sremove (x : string) (l : list string) : res (list string) :=
  match l with [] => Raise ValueError | y :: l => if String.eqb x y then Ok l else do r <- sremove x l; Ok (y :: r) end.
Fixpoint dpop {A} (d : dict A) (k : string) : dict A :=
  match d with [] => [] | (k', v) :: d => if String.eqb k k' then d else (k', v) :: dpop d k end.
Definition head_of (l : list string) : res string := match l with x :: _ => Ok x | [] => Raise IndexError end.

(** the body of the merge, 216-231 *)
Definition merge_pair (g : pgraph) (pad : string) (padop : pop) (curr : string) (op : pop) : res pgraph :=
  let merged := mkPop (p_type op) (p_mod op) (p_ins padop) (p_outs op) in
  let ops := dpop (dset (g_ops g) pad merged) curr in
  do names <- sremove curr (match dget (g_mops g) (p_mod merged) with Some l => l | None => [] end);
  do x <- head_of (p_ins padop);
  do i <- edge_index (x, pad) (g_edges g);
  do y <- head_of (p_outs merged);
  let es := firstn i (g_edges g) ++ skipn (i + 4) (g_edges g) in
  let es := firstn i es ++ [(x, pad)] ++ skipn i es in
  let es := firstn (i + 1) es ++ [(pad, y)] ++ skipn (i + 1) es in
  Ok (mkPg ops es (dset (g_mops g) (p_mod merged) names)).

(** __merge_pad_avgpool, 199-233: [pad] is pad_op_name; note that [continue] leaves it as it is *)
Definition merge_step (s : pgraph * option string) (no : string * pop) : res (pgraph * option string) :=
  let '(g, pad) := s in
  let (curr, op) := no in
  if String.eqb (p_type op) "Pad" then Ok (g, Some curr)
  else match pad with
       | Some pn =>
           if String.eqb (p_type op) "AveragePool" then
             match dget (g_ops g) pn with
             | None => Raise KeyError
             | Some po => if negb (String.eqb (p_mod po) (p_mod op)) then Ok (g, pad)
                          else do g' <- merge_pair g pn po curr op; Ok (g', None)
             end
           else Ok (g, None)
       | None => Ok (g, None)
       end.
Definition merge_pad_avgpool (g : pgraph) : res pgraph := do s <- foldM merge_step (g_ops g) (g, None); Ok (fst s).

(** the whole construction: 122-195 *)
Definition pad_summary_graph (nodes : list tnode) : res pgraph := merge_pad_avgpool (build_pgraph nodes).
(** the graph without the tensors of each operation, as used by the queries of SgModel.v *)
Definition strip (g : pgraph) (mods : dict bool) : sgraph :=
  mkSg (map (fun no => (fst no, mkOp (p_type (snd no)) (p_mod (snd no)))) (g_ops g)) (g_edges g) (g_mops g) mods.

(* ------------------------------------------------------------------------- *)
(** * Operations before a dropout *)
(** a node of the trace before the ONNX optimisation: scope name and kind *)
Record rnode := mkR { r_scope : string; r_kind : string }.
(** 'aten' not in kind *)
Fixpoint occurs (sub s : string) : bool :=
  String.prefix sub s || match s with EmptyString => false | String _ s => occurs sub s end.
(** 100-111: pre_dropout_nodes_scope_names *)
Definition dropout_step (s : dict string * option string) (n : rnode) : dict string * option string :=
  let '(d, prev) := s in
  if negb (occurs "aten" (r_kind n)) then (d, prev)
  else if String.eqb (r_kind n) "aten::dropout" then
    match prev with Some p => (dset d (r_scope n) p, prev) | None => (d, prev) end
  else (d, Some (r_scope n)).
Definition pre_dropout_names (nodes : list rnode) : dict string := fst (fold_left dropout_step nodes ([], None)).
(** 130-135: the scope of a node of the optimised trace, corrected *)
Definition fixed_scope (workaround : bool) (d : dict string) (scope : string) : string :=
  if workaround then match dget d scope with Some s => s | None => scope end else scope.
