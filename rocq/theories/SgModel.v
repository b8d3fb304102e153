(** Model of the queries of distiller/summary_graph.py: adjacency map, topological order of the layers,
    missing modules; the names given to the operations, the replacement of nn.ModuleList.

    Simplifications: the model is not wrapped in DataParallel (module names are the same normalised and
    denormalised); the trace itself (torch.jit, ONNX) is the input of the model. *)
From Coq Require Import String Ascii List Bool Arith.
From Verif Require Import Base Names.
Import ListNotations.
Open Scope list_scope.

(** an operation: type and 'module-name'; SummaryGraph.__init__, summary_graph.py:128-194 *)
Record sop := mkOp { o_type : string; o_module : string }.
(** self.ops, self.edges, self.module_ops_map; the modules of the model (dict(named_modules())) with whether they
    have children *)
Record sgraph := mkSg { s_ops : dict sop; s_edges : list (string * string); s_mops : dict (list string); s_mods : dict bool }.

Definition smem (x : string) (l : list string) : bool := existsb (String.eqb x) l.

(** [edge.dst for edge in self.edges if edge.src == node and edge.dst not in done] (fwd), or with the edges reversed *)
Definition step_edges (fwd : bool) (es : list (string * string)) (n : string) (done : list string) : list string :=
  filter (fun x => negb (smem x done))
    (map (fun e => if fwd then snd e else fst e) (filter (fun e => String.eqb (if fwd then fst e else snd e) n) es)).
(** predecessors (374-393) and successors (427-446) with depth = S d; the done_list is shared by the recursion *)
Fixpoint neighbours (fwd : bool) (es : list (string * string)) (d : nat) (n : string) (done : list string) : list string * list string :=
  let next := step_edges fwd es n done in
  let done := done ++ next in
  match d with
  | O => (next, done)
  | S d => fold_left (fun s x => let r := neighbours fwd es d x (snd s) in (fst s ++ fst r, snd r)) next ([], done)
  end.
Definition predecessors (g : sgraph) (n : string) (depth : nat) : list string := fst (neighbours false (s_edges g) (depth - 1) n []).
Definition successors (g : sgraph) (n : string) (depth : nat) : list string := fst (neighbours true (s_edges g) (depth - 1) n []).

(** _dedicated_module_check, 507-512 *)
Definition dedicated_check (g : sgraph) (only : bool) (n : string) : res bool :=
  if negb only then Ok true else
  match dget (s_ops g) n with
  | None => Raise KeyError
  | Some o => match dget (s_mods g) (o_module o) with
              | None => Raise KeyError
              | Some has_children =>
                  Ok (Nat.eqb (length (match dget (s_mops g) (o_module o) with Some l => l | None => [] end)) 1 && negb has_children)
              end
  end.

(** OpSimpleMetadata is (name, type); AdjacentsEntry *)
Record entry := mkEntry { e_type : string; e_preds : list (string * string); e_succs : list (string * string) }.
Definition amap := dict entry.

(** [op_meta(n) for n in l if check(n)] *)
Fixpoint metas (g : sgraph) (only : bool) (l : list string) : res (list (string * string)) :=
  match l with
  | [] => Ok []
  | n :: l =>
      do b <- dedicated_check g only n;
      if b then
        match dget (s_ops g) n with
        | None => Raise KeyError
        | Some o => do r <- metas g only l; Ok ((n, o_type o) :: r)
        end
      else metas g only l
  end.
(** the loop of adjacency_map, 531-551 *)
Definition adj_body (g : sgraph) (only : bool) (m : amap) (no : string * sop) : res amap :=
  let (n, o) := no in
  do b <- dedicated_check g only n;
  if b then
    do ps <- metas g only (predecessors g n 2);
    do ss <- metas g only (successors g n 2);
    Ok (dset m n (mkEntry (o_type o) ps ss))
  else Ok m.
Definition build_adj (g : sgraph) (only : bool) : res amap := foldM (adj_body g only) (s_ops g) [].

(** the state of the SummaryGraph: _adj_map and _layers_topological_order *)
Record sgst := mkSt { c_adj : option amap; c_topo : option (list string) }.
Definition fresh_sg := mkSt None None.
(** Python truthiness of a cached value *)
Definition truthy {A} (o : option (list A)) : option (list A) := match o with Some (x :: l) => Some (x :: l) | _ => None end.

(** adjacency_map, 514-552 *)
Definition adjacency_map (g : sgraph) (only : bool) (s : sgst) : res amap * sgst :=
  match (if only then None else truthy (c_adj s)) with
  | Some m => (Ok m, s)
  | None => match build_adj g only with
            | Ok m => (Ok m, mkSt (Some m) (c_topo s))
            | Raise e => (Raise e, s)
            end
  end.

(** layers_topological_order, 554-602.  _OpRank.rank only grows (617-619).  The recursion of Python is bounded by [fuel]:
    RecursionError (a RuntimeError) when it is exhausted. *)
Definition succ_names (m : amap) (n : string) : res (list string) :=
  match dget m n with Some e => Ok (map fst (e_succs e)) | None => Raise KeyError end.
Definition raise_rank (r : string -> nat) (n : string) (v : nat) : string -> nat := fun k => if String.eqb k n then Nat.max v (r n) else r k.
(** _is_descendant, 569-576 *)
Fixpoint is_descendant (fuel : nat) (m : amap) (parent dest : string) : res bool :=
  match fuel with
  | O => Raise RuntimeError
  | S fuel =>
      do ss <- succ_names m parent;
      if smem dest ss then Ok true
      else (fix go (l : list string) : res bool :=
              match l with
              | [] => Ok false
              | s :: l => do b <- is_descendant fuel m s dest; if b then Ok true else go l
              end) ss
  end.
(** _recurrent_ancestor, 568-579 *)
Definition recurrent_ancestor (fuel : nat) (m : amap) (r : string -> nat) (dest src : string) : res bool :=
  do b <- is_descendant fuel m dest src;
  Ok (b && (Nat.ltb 0 (r dest) && Nat.ltb (r dest) (r src))).
(** rank_op, 581-586 *)
Fixpoint rank_op (fuel : nat) (recurrent : bool) (m : amap) (r : string -> nat) (n : string) (v : nat) : res (string -> nat) :=
  match fuel with
  | O => Raise RuntimeError
  | S fuel' =>
      do ss <- succ_names m n;
      foldM (fun r c =>
        do skip <- (if recurrent then recurrent_ancestor fuel m r c n else Ok false);
        if skip : bool then Ok r else rank_op fuel' recurrent m r c (r n + 1)) ss (raise_rank r n v)
  end.
(** sorted(..., key=rank): stable *)
Fixpoint ins_rank (r : string -> nat) (x : string) (l : list string) : list string :=
  match l with [] => [x] | y :: l' => if Nat.leb (r x) (r y) then x :: y :: l' else y :: ins_rank r x l' end.
Definition sort_rank (r : string -> nat) (l : list string) : list string := fold_right (ins_rank r) [] l.

Definition topo_of (fuel : nat) (recurrent : bool) (g : sgraph) (m : amap) : res (list string) :=
  let roots := map fst (filter (fun ne => match e_preds (snd ne) with [] => true | _ => false end) m) in
  do r <- foldM (fun r n => rank_op fuel recurrent m r n 0) roots (fun _ => 0);
  let ret := sort_rank r (filter (fun k => dmem (s_mods g) k) (dkeys m)) in
  if forallb (fun k => negb (Nat.eqb (r k) 0) || smem k roots) ret then Ok ret else Raise AssertionError.
Definition layers_topological_order (fuel : nat) (recurrent : bool) (g : sgraph) (s : sgst) : res (list string) * sgst :=
  match truthy (c_topo s) with
  | Some l => (Ok l, s)
  | None =>
      match adjacency_map g false s with
      | (Raise e, s) => (Raise e, s)
      | (Ok m, s) => match topo_of fuel recurrent g m with
                     | Ok l => (Ok l, mkSt (c_adj s) (Some l))
                     | Raise e => (Raise e, s)
                     end
      end
  end.

(** missing_modules, 612-617 *)
Fixpoint filter_res (f : string -> res bool) (l : list string) : res (list string) :=
  match l with [] => Ok [] | x :: l => do b <- f x; do r <- filter_res f l; Ok (if b then x :: r else r) end.
Definition missing_modules (g : sgraph) (s : sgst) : res (list string) * sgst :=
  match adjacency_map g false s with
  | (Raise e, s) => (Raise e, s)
  | (Ok m, s) => (filter_res (fun n => do b <- dedicated_check g true n; Ok (negb b)) (dkeys m), s)
  end.

(* ------------------------------------------------------------------------- *)
(** * Names of the operations *)

(** onnx_name_2_pytorch_name, 30-39: re.findall('\[.*?\]', name), brackets removed, joined by dots.  [cur] is the part being
    read, None outside brackets; an unclosed bracket matches nothing. *)
Fixpoint bracketed (cur : option string) (s : string) : list string :=
  match s with
  | EmptyString => []
  | String c s =>
      match cur with
      | None => if Ascii.eqb c "["%char then bracketed (Some EmptyString) s else bracketed None s
      | Some p => if Ascii.eqb c "]"%char then p :: bracketed None s else bracketed (Some (p ++ String c EmptyString)%string) s
      end
  end.
Definition onnx_name_2_pytorch_name (s : string) : string := join_dot (bracketed None s).

(** decimal representation, as '%d' *)
Definition digit (n : nat) : ascii := ascii_of_nat (48 + n).
Fixpoint dec_aux (fuel n : nat) (acc : string) : string :=
  match fuel with
  | O => acc
  | S fuel => let acc := String (digit (n mod 10)) acc in if Nat.ltb n 10 then acc else dec_aux fuel (n / 10) acc
  end.
Definition dec (n : nat) : string := dec_aux (S n) n EmptyString.

(** a node of the trace: module, type, the tensors it consumes and those it produces *)
Record tnode := mkNode { n_module : string; n_type : string; n_ins : list string; n_outs : list string }.
(** the loop over graph.nodes(), 122-187 *)
Definition add_node (g : sgraph) (n : tnode) : sgraph :=
  let same := match dget (s_mops g) (n_module n) with Some l => l | None => [] end in
  let base := if String.eqb (n_module n) EmptyString then "top_level_op"%string else n_module n in
  let name := match same with [] => base | _ => (base ++ "_" ++ n_type n ++ "_" ++ dec (length same))%string end in
  mkSg (dset (s_ops g) name (mkOp (n_type n) (n_module n)))
       (s_edges g ++ map (fun t => (t, name)) (n_ins n) ++ map (fun t => (name, t)) (n_outs n))
       (dset (s_mops g) (n_module n) (same ++ [name]))
       (s_mods g).
Definition build_graph (nodes : list tnode) (mods : dict bool) : sgraph := fold_left add_node nodes (mkSg [] [] [] mods).
