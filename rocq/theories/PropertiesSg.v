(** C65-C67: the summary graph: adjacency, topological order, names. *)
From Coq Require Import String Ascii List Bool Arith Lia.
From Verif Require Import Base Names QzrSpec SgModel SgSpec SgProofs SgTopo SgNames SgListModel SgListSpec SgListProofs.
Import ListNotations.
Open Scope list_scope.

(* ------------------------------------------------------------------------- *)
(** * C65: adjacency map *)

(** In a fresh summary graph, the adjacency map lists the operations (those of dedicated modules only, on request) in the order
    of execution, each with exactly the operations shown that it feeds and that feed it. *)
Theorem C65_adjacency :
  forall g only, wf_graph g -> exists m, adjacency_map g only fresh_sg = (Ok m, mkSt (Some m) None) /\ is_adjacency g only m.
Proof.
  intros g only W. destruct (build_adj_spec g W only) as (m & E & A). exists m. split; auto. unfold adjacency_map. cbn [c_adj fresh_sg truthy c_topo]. rewrite E. destruct only; reflexivity.
Qed.

(** Successors and predecessors agree. *)
Theorem C65_symmetric :
  forall g only s m s', wf_graph g -> c_adj s = None -> adjacency_map g only s = (Ok m, s') ->
  forall a b ea eb, dget m a = Some ea -> dget m b = Some eb ->
    ((exists t, In (b, t) (e_succs ea)) <-> (exists t, In (a, t) (e_preds eb))).
Proof.
  intros g only s m s' W Hs H a b ea eb Ha Hb. destruct (build_adj_spec g W only) as (m0 & E & A). unfold adjacency_map in H. rewrite Hs in H.
  assert (m = m0) as ->. { destruct only; cbn [truthy] in H; rewrite E in H; congruence. }
  destruct A as (N & K & _ & Ok0). destruct (Ok0 _ _ Ha) as (Ta & Sa & _). destruct (Ok0 _ _ Hb) as (Tb & _ & Pb).
  assert (Sha : shown g only a) by (apply K; apply dget_In in Ha; apply (in_map fst) in Ha; auto).
  assert (Shb : shown g only b) by (apply K; apply dget_In in Hb; apply (in_map fst) in Hb; auto).
  split; intros (t & I).
  - apply Sa in I. exists (e_type ea). apply Pb. tauto.
  - apply Pb in I. exists (e_type eb). apply Sa. tauto.
Qed.

(** The map is kept: after any call for the dedicated modules, a plain call returns the restricted map too (unless it is
    empty).  Exact result of a plain call after any sequence of calls. *)
Definition calls (g : sgraph) (h : list bool) (s : sgst) : sgst := fold_left (fun s only => snd (adjacency_map g only s)) h s.
Theorem C65_history :
  forall g h full restricted, wf_graph g -> build_adj g false = Ok full -> build_adj g true = Ok restricted -> restricted <> [] ->
  fst (adjacency_map g false (calls g h fresh_sg)) = Ok (if existsb (fun b => b) h then restricted else full) /\
  fst (adjacency_map g true (calls g h fresh_sg)) = Ok restricted.
Proof.
  intros g h full restricted W Ef Er Hr.
  assert (S : forall h0 s, (c_adj s = None /\ c_topo s = None) \/ c_adj s = Some full \/ c_adj s = Some restricted ->
     let s' := calls g h0 s in
     if existsb (fun b => b) h0 then c_adj s' = Some restricted
     else c_adj s' = c_adj s \/ (c_adj s' = Some full /\ (c_adj s = None \/ truthy (c_adj s) = None))).
  { induction h0 as [|b h0 IH]; intros s Hs; cbn [calls fold_left existsb]; [left; auto|]. fold (calls g h0 (snd (adjacency_map g b s))). destruct b; cbn [orb].
    - assert (E : snd (adjacency_map g true s) = mkSt (Some restricted) (c_topo s)) by (unfold adjacency_map; rewrite Er; reflexivity). rewrite E.
      specialize (IH (mkSt (Some restricted) (c_topo s)) (or_intror (or_intror eq_refl))). cbn in IH. destruct (existsb (fun b => b) h0); auto. destruct IH as [IH|(_ & [IH|IH])]; [auto|discriminate|].
      destruct restricted; [congruence|discriminate].
    - assert (E : snd (adjacency_map g false s) = match truthy (c_adj s) with Some _ => s | None => mkSt (Some full) (c_topo s) end).
      { unfold adjacency_map. rewrite Ef. destruct (truthy (c_adj s)); reflexivity. }
      rewrite E. destruct (truthy (c_adj s)) eqn:T; [specialize (IH s Hs); cbn zeta in IH; rewrite T in IH; exact IH|].
      specialize (IH (mkSt (Some full) (c_topo s)) (or_intror (or_introl eq_refl))). cbn in IH. destruct (existsb (fun b => b) h0); auto. destruct IH as [IH|(IH & _)]; right; split; auto. }
  split.
  - specialize (S h fresh_sg (or_introl (conj eq_refl eq_refl))). cbn in S. unfold adjacency_map. destruct (existsb (fun b => b) h).
    + rewrite S. destruct restricted; [congruence|reflexivity].
    + destruct S as [S|(S & _)]; rewrite S; [cbn; rewrite Ef; reflexivity|]. destruct full; [cbn; rewrite Ef; reflexivity|reflexivity].
  - unfold adjacency_map. rewrite Er. reflexivity.
Qed.

(** The operations without a dedicated module, in a fresh graph; none after a call for the dedicated modules. *)
Lemma filter_res_ok g (W : wf_graph g) l : Forall (is_op g) l -> filter_res (fun n => do b <- dedicated_check g true n; Ok (negb b)) l = Ok (filter (fun n => negb (keepb g true n)) l).
Proof.
  induction l as [|n l IH]; intro F; auto. inversion F; subst. cbn [filter_res]. destruct (dedicated_spec g W true n H1) as (b & E & _). assert (K : keepb g true n = b) by (unfold keepb; rewrite E; auto). cbn [filter]. rewrite E, K. cbn [bind]. rewrite IH by auto. reflexivity.
Qed.
Theorem C65_missing_modules :
  forall g, wf_graph g -> exists l, fst (missing_modules g fresh_sg) = Ok l /\ NoDup l /\ (forall n, In n l <-> is_op g n /\ ~ dedicated g n).
Proof.
  intros g W. unfold missing_modules. destruct (C65_adjacency g false W) as (m & E & A). rewrite E. cbn [fst].
  assert (K := keys_all g m A). rewrite K. rewrite filter_res_ok; [|auto|apply Forall_forall; auto]. eexists. split; [reflexivity|]. split; [apply NoDup_filter; apply W|].
  intro n. rewrite filter_In. split; intros (O & D); (split; [exact O|]); destruct (dedicated_spec g W true n O) as (b & Eb & Hb); unfold keepb in *; rewrite Eb in *.
  - intro Dn. destruct b; [discriminate|]. assert (false = true); [|discriminate]. apply Hb. split; auto.
  - destruct b; auto. exfalso. apply D. apply Hb; auto.
Qed.
Theorem C65_missing_after_dedicated :
  forall g restricted, wf_graph g -> build_adj g true = Ok restricted -> restricted <> [] ->
  fst (missing_modules g (snd (adjacency_map g true fresh_sg))) = Ok [].
Proof.
  intros g r W E Hr. unfold missing_modules, adjacency_map at 2. rewrite E. cbn [snd]. unfold adjacency_map. cbn [c_adj]. destruct r as [|x r]; [congruence|]. cbn [truthy].
  destruct (build_adj_spec g W true) as (m & E' & (_ & K & _)). assert (m = x :: r) by congruence. subst m. cbn [fst].
  assert (F : Forall (shown g true) (dkeys (x :: r))) by (apply Forall_forall; intros n Hn; apply K; auto). rewrite filter_res_ok; [|auto|eapply Forall_impl; [|exact F]; intros a Ha; apply Ha].
  f_equal. clear K. induction (dkeys (x :: r)) as [|n l IH]; auto. inversion F; subst. cbn [filter]. destruct (dedicated_spec g W true n (proj1 H1)) as (b & Eb & Hb). unfold keepb at 1. rewrite Eb. destruct b; cbn [negb]; [auto|].
  assert (false = true); [apply Hb; auto|discriminate].
Qed.

(** Example: conv1, bn1, a functional addition at the top level, conv2. *)
Definition ex_nodes : list tnode :=
  [ mkNode "conv1" "Conv" ["x"; "w1"] ["t1"]; mkNode "bn1" "BatchNormalization" ["t1"] ["t2"];
    mkNode "" "Add" ["t2"; "t2"] ["t3"]; mkNode "conv2" "Conv" ["t3"; "w2"] ["t4"] ]%string.
Definition ex_mods : dict bool := [(""%string, true); ("conv1"%string, false); ("bn1"%string, false); ("conv2"%string, false)].
Definition ex_g := build_graph ex_nodes ex_mods.
Lemma ex_good : good_trace ex_nodes ex_mods.
Proof.
  split; [split|split; [|split; [|split]]].
  - intros n [<-|[<-|[<-|[<-|[]]]]]; unfold no_underscore; cbn; intuition discriminate.
  - intros n n' [<-|[<-|[<-|[<-|[]]]]] [<-|[<-|[<-|[<-|[]]]]] H; try (exfalso; apply H; reflexivity); (split; [discriminate|intros t k E; cbn in E; discriminate]).
  - cbn. repeat constructor; cbn; intuition discriminate.
  - intros n [<-|[<-|[<-|[<-|[]]]]]; cbn; tauto.
  - intros t (n & [<-|[<-|[<-|[<-|[]]]]] & H); cbn in H; intuition (subst; try tauto); cbn in *; intuition discriminate.
  - intros i j ni nj t Hi Hj. do 4 (destruct i as [|i]; [cbn in Hi; injection Hi as <-; do 4 (destruct j as [|j]; [cbn in Hj; injection Hj as <-; cbn; intros; try lia; intuition (subst; try discriminate; congruence)|]); destruct j; discriminate|]). destruct i; discriminate.
Qed.
Example C65_example : wf_graph ex_g /\ exists m, build_adj ex_g true = Ok m /\ dkeys m = ["conv1"; "bn1"; "conv2"]%string.
Proof. split; [apply trace_wf, ex_good|]. eexists. split; vm_compute; reflexivity. Qed.
(** an operation that consumes the same tensor twice occurs twice among the successors of its producer *)
Example C65_duplicates : exists m e, fst (adjacency_map ex_g false fresh_sg) = Ok m /\ dget m "bn1" = Some e /\ e_succs e = [("top_level_op", "Add"); ("top_level_op", "Add")]%string.
Proof. eexists _, _. split; [vm_compute; reflexivity|]. split; vm_compute; reflexivity. Qed.
(** the full map is not returned after a call for the dedicated modules *)
Theorem C65_cache_refuted :
  ~ (forall g h, wf_graph g -> exists m, fst (adjacency_map g false (calls g h fresh_sg)) = Ok m /\ is_adjacency g false m).
Proof.
  intro H. destruct (H ex_g [true] (trace_wf _ _ ex_good)) as (m & E & A). assert (K := keys_all _ _ A). vm_compute in E. injection E as <-. vm_compute in K. discriminate.
Qed.

(* ------------------------------------------------------------------------- *)
(** * C66: topological order of the layers *)

(** For an acyclic graph, with or without [recurrent], the order exists, lists the modules by longest chain from a root, and puts
    every layer after all those whose results it depends on; later calls return the same list. *)
Theorem C66_topological_order :
  forall g, wf_graph g -> acyclic g -> exists N l, is_topological g l /\
    (forall a b, upstream g a b -> In a l -> In b l -> before l a b) /\
    forall fuel recurrent, N < fuel -> exists s, layers_topological_order fuel recurrent g fresh_sg = (Ok l, s) /\
      forall fuel' recurrent', l <> [] -> layers_topological_order fuel' recurrent' g s = (Ok l, s).
Proof.
  intros g W Ac. destruct (C65_adjacency g false W) as (m & E & A). destruct (topo_acyclic g W m A Ac) as (N & l & T & H). exists N, l. split; auto. split; [apply topo_upstream with (m := m); auto|].
  intros fuel recurrent Hf. eexists. split.
  - unfold layers_topological_order. cbn [truthy c_topo fresh_sg]. rewrite E, H by auto. reflexivity.
  - intros fuel' recurrent' Hl. unfold layers_topological_order. cbn [c_topo]. destruct l; [congruence|reflexivity].
Qed.
Example C66_example : fst (layers_topological_order 10 false ex_g fresh_sg) = Ok ["conv1"; "bn1"; "conv2"]%string.
Proof. reflexivity. Qed.
(** After a call of adjacency_map for the dedicated modules the order need not be topological: conv2 comes before bn1, whose result
    it depends on. *)
Theorem C66_after_dedicated_refuted :
  ~ (forall g fuel l, wf_graph g -> acyclic g -> fst (layers_topological_order fuel false g (snd (adjacency_map g true fresh_sg))) = Ok l ->
       forall a b, upstream g a b -> In a l -> In b l -> before l a b).
Proof.
  intro H. specialize (H ex_g 10 ["conv1"; "conv2"; "bn1"]%string (trace_wf _ _ ex_good) (trace_acyclic _ _ ex_good) ltac:(vm_compute; reflexivity) "bn1"%string "conv2"%string).
  assert (U : upstream ex_g "bn1" "conv2").
  { eapply UpMore with (b := "top_level_op"%string); [exists "t2"%string; cbn; tauto|]. apply UpOne. exists "t3"%string. cbn. tauto. }
  destruct (H U) as (l1 & l2 & l3 & E); [cbn; tauto|cbn; tauto|]. destruct l1 as [|a [|b [|c [|d l1]]]]; cbn in E; try discriminate; injection E; intros; try discriminate; destruct l2; discriminate.
Qed.
(** A cycle that some root leads to makes the recursion endless, with or without [recurrent]. *)
Theorem C66_cycle :
  forall g n c, wf_graph g -> root g n -> upstream g n c -> upstream g c c ->
  forall fuel recurrent, fst (layers_topological_order fuel recurrent g fresh_sg) = Raise RuntimeError.
Proof.
  intros g n c W R U C fuel recurrent. destruct (C65_adjacency g false W) as (m & E & A). unfold layers_topological_order. cbn [truthy c_topo fresh_sg]. rewrite E, (topo_cycle g W m A n c); auto.
Qed.
(** Without any root the check of the ranks fails (if some operation is named like a module). *)
Theorem C66_no_root :
  forall g x, wf_graph g -> (forall n, ~ root g n) -> is_op g x -> In x (dkeys (s_mods g)) ->
  forall fuel recurrent, fst (layers_topological_order fuel recurrent g fresh_sg) = Raise AssertionError.
Proof.
  intros g x W NR O M fuel recurrent. destruct (C65_adjacency g false W) as (m & E & A). unfold layers_topological_order. cbn [truthy c_topo fresh_sg]. rewrite E. unfold topo_of.
  assert (R : roots_of m = []). { destruct (roots_of m) as [|r l] eqn:Er; auto. exfalso. apply (NR r). apply (roots_spec g W m A). rewrite Er. left; auto. }
  fold (roots_of m). rewrite R. cbn [foldM bind smem existsb].
  assert (I : In x (sort_rank (fun _ => 0) (filter (fun k => dmem (s_mods g) k) (dkeys m)))).
  { apply (Permutation.Permutation_in x (Permutation.Permutation_sym (sort_rank_perm _ _))). apply filter_In. rewrite (keys_all g m A). split; auto. unfold dmem. destruct (dget (s_mods g) x) eqn:D; auto. apply dget_None_notin in D. contradiction. }
  replace (forallb _ _) with false; [reflexivity|]. symmetry. apply Bool.not_true_iff_false. intro F. rewrite forallb_forall in F. apply F in I. discriminate.
Qed.
Definition ex_cyc : sgraph := mkSg [("a", mkOp "Conv" "a"); ("b", mkOp "Conv" "b")]%string [("a", "t"); ("t", "b"); ("b", "u"); ("u", "b")]%string [("a", ["a"]); ("b", ["b"])]%string [("a", false); ("b", false)]%string.
Example C66_cycle_example : wf_graph ex_cyc /\ root ex_cyc "a" /\ upstream ex_cyc "a" "b" /\ upstream ex_cyc "b" "b".
Proof.
  split; [split; [|split; [|split; [|split]]]|].
  - cbn. repeat constructor; cbn; intuition discriminate.
  - cbn. repeat constructor; cbn; intuition discriminate.
  - intros x y [H|[H|[H|[H|[]]]]]; injection H as <- <-; unfold is_op; cbn; [left|right|left|right]; intuition discriminate.
  - intros n o [H|[H|[]]]; injection H as <- <-; cbn; tauto.
  - intros n o H. exists [n]. split; [destruct H as [H|[H|[]]]; injection H as <- <-; reflexivity|]. split; [apply NoDup_cons; [intros []|apply NoDup_nil]|]. intro n'. split.
    + intros [<-|[]]. exists o. auto.
    + intros (o' & H' & E). destruct H as [H|[H|[]]], H' as [H'|[H'|[]]]; injection H as <- <-; injection H' as <- <-; cbn in *; try discriminate; auto.
  - split; [split; [cbn; left; reflexivity|]|].
    + intros a (t & _ & [H|[H|[H|[H|[]]]]]); discriminate.
    + split; apply UpOne; [exists "t"%string|exists "u"%string]; cbn; tauto.
Qed.

(* ------------------------------------------------------------------------- *)
(** * C67: names *)

(** The scope of a node, as the tracer prints it, is turned into the dotted name of the module. *)
Theorem C67_scope_name :
  forall top path, lacks "[" top -> Forall (fun p => lacks "[" (fst p) /\ lacks "]" (snd p)) path ->
  onnx_name_2_pytorch_name (scope_text top path) = join_dot (map snd path).
Proof. intros top path H F. unfold onnx_name_2_pytorch_name, scope_text. rewrite bracketed_skip by auto. rewrite bracketed_tail; auto. Qed.
Example C67_scope_example : onnx_name_2_pytorch_name "ResNet/Sequential[layer3]/BasicBlock[0]/ReLU[relu]" = "layer3.0.relu"%string.
Proof. reflexivity. Qed.

(** Every node of the trace becomes one operation: the first of its module has the module's name ("top_level_op" for the model
    itself), the k-th after it the suffix _type_k.  Names are unique, and the operation has the type and the module of its node. *)
Theorem C67_operations :
  forall nodes mods, no_clash nodes -> let g := build_graph nodes mods in
  dkeys (s_ops g) = op_names nodes /\ NoDup (op_names nodes) /\
  forall i n nm, nth_error nodes i = Some n -> nth_error (op_names nodes) i = Some nm ->
    nm = op_name (count_mod (n_module n) (firstn i nodes)) (n_module n) (n_type n) /\
    dget (s_ops g) nm = Some (mkOp (n_type n) (n_module n)).
Proof.
  intros nodes mods C g. destruct (build_state mods nodes C) as (E & _). fold g in E. assert (Nd := op_names_NoDup nodes C). rewrite E, ops_keys. split; auto. split; auto. intros i n nm Hi Hn. split.
  - clear - Hi Hn. unfold op_names in Hn. rewrite <- (app_nil_l (firstn i nodes)). revert Hi Hn. generalize (@nil tnode). revert i. induction nodes as [|x nodes IH]; intros i pre Hi Hn; [destruct i; discriminate|]. destruct i as [|i]; cbn in *.
    + rewrite app_nil_r. congruence.
    + specialize (IH i (pre ++ [x]) Hi Hn). rewrite <- app_assoc in IH. exact IH.
  - apply In_dget; [rewrite ops_keys; auto|]. unfold ops_of. apply in_map_iff. exists (n, nm). split; [reflexivity|]. apply in_combine_at. exists i. split; auto.
Qed.
(** The graph of a trace is well-formed and acyclic, and an operation feeds another exactly if it produces a tensor the other consumes. *)
Theorem C67_trace :
  forall nodes mods, good_trace nodes mods -> let g := build_graph nodes mods in
  wf_graph g /\ acyclic g /\
  forall a b, is_op g a -> (feeds g a b <-> exists i j ni nj t, nth_error nodes i = Some ni /\ nth_error (op_names nodes) i = Some a /\
     nth_error nodes j = Some nj /\ nth_error (op_names nodes) j = Some b /\ In t (n_outs ni) /\ In t (n_ins nj)).
Proof.
  intros nodes mods G g. split; [apply trace_wf; auto|]. split; [apply trace_acyclic; auto|]. intros a b Ha. unfold g. rewrite (trace_feeds nodes mods G a b Ha). unfold op_at. split; intros (i & j & ni & nj & t & H); exists i, j, ni, nj, t; tauto.
Qed.
Theorem C67_trace_order :
  forall nodes mods, good_trace nodes mods -> let g := build_graph nodes mods in
  exists N l, (forall a b, upstream g a b -> In a l -> In b l -> before l a b) /\ (forall n, In n l <-> In n (op_names nodes) /\ In n (dkeys mods)) /\
    forall fuel recurrent, N < fuel -> fst (layers_topological_order fuel recurrent g fresh_sg) = Ok l.
Proof.
  intros nodes mods G g. destruct (C66_topological_order g (trace_wf _ _ G) (trace_acyclic _ _ G)) as (N & l & T & U & H). exists N, l. split; auto. split.
  - intro n. destruct T as (_ & T & _). rewrite T. unfold g. rewrite (is_op_names nodes mods G). destruct (build_state mods nodes (proj1 G)) as (_ & _ & -> & _). tauto.
  - intros fuel recurrent Hf. destruct (H fuel recurrent Hf) as (s & -> & _). reflexivity.
Qed.
(** A module whose name is the name another module's operation gets: the operation is lost, and the graph has a cycle. *)
Definition clash_nodes : list tnode :=
  [ mkNode "conv" "Conv" ["x"] ["a"]; mkNode "relu" "Relu" ["a"] ["b"]; mkNode "relu" "Relu" ["b"] ["c"]; mkNode "relu_Relu_1" "Conv" ["c"] ["d"] ]%string.
Definition clash_mods : dict bool := [(""%string, true); ("conv"%string, false); ("relu"%string, false); ("relu_Relu_1"%string, false)].
Theorem C67_name_clash_refuted :
  length (s_ops (build_graph clash_nodes clash_mods)) <> length clash_nodes /\
  feeds (build_graph clash_nodes clash_mods) "relu_Relu_1" "relu_Relu_1" /\
  fst (layers_topological_order 100 false (build_graph clash_nodes clash_mods) fresh_sg) = Raise RuntimeError.
Proof. split; [vm_compute; discriminate|]. split; [exists "c"%string; vm_compute; tauto|]. vm_compute. reflexivity. Qed.
(** A tensor whose name is the name of an operation (a top-level Sequential has modules "0", "1", ...): adjacency_map fails. *)
Definition tclash_nodes : list tnode := [ mkNode "0" "Conv" ["x"] ["1"]; mkNode "1" "Relu" ["1"] ["2"] ]%string.
Definition tclash_mods : dict bool := [(""%string, true); ("0"%string, false); ("1"%string, false)].
Theorem C67_tensor_clash_refuted : no_clash tclash_nodes /\ fst (adjacency_map (build_graph tclash_nodes tclash_mods) false fresh_sg) = Raise KeyError.
Proof.
  split; [|vm_compute; reflexivity]. split.
  - intros n [<-|[<-|[]]]; unfold no_underscore; cbn; intuition discriminate.
  - intros n n' [<-|[<-|[]]] [<-|[<-|[]]] H; try (exfalso; apply H; reflexivity); (split; [discriminate|intros t k E; cbn in E; discriminate]).
Qed.

(** Module lists: the clone has the same modules in the same order, without lists, and the map gives for each name in the clone the
    name of the same module in the original model. *)
Theorem C67_module_lists :
  forall t, good_tree t -> is_list t = false -> exists t' names, to_distiller_modulelist t = Ok (t', names) /\
    map snd (modules_of EmptyString t') = map snd (modules_of EmptyString t) /\
    NoDup (map fst (modules_of EmptyString t')) /\ dkeys names = map fst (modules_of EmptyString t') /\
    forall i n id, nth_error (modules_of EmptyString t') i = Some (n, id) ->
      exists n0, nth_error (modules_of EmptyString t) i = Some (n0, id) /\ dget names n = Some n0.
Proof.
  intros t G Hl. destruct (convert_good t G) as (t' & E & Sh & Id & Al & G'). unfold to_distiller_modulelist. rewrite E. cbn [bind].
  assert (N := modules_NoDup t G). assert (N' := modules_NoDup t' G'). rewrite (to_dict_id (modules_of EmptyString t)), (to_dict_id (modules_of EmptyString t')) by auto. unfold dkeys.
  assert (L : length (map fst (modules_of EmptyString t')) = length (map fst (modules_of EmptyString t))).
  { rewrite !map_length, <- (map_length snd (modules_of _ t')), <- (map_length snd (modules_of _ t)), !modules_idents, Id. auto. }
  assert (Nc : map fst (combine (map fst (modules_of EmptyString t')) (map fst (modules_of EmptyString t))) = map fst (modules_of EmptyString t')).
  { clear - L. revert L. generalize (map fst (modules_of EmptyString t')) (map fst (modules_of EmptyString t)). induction l as [|x l IH]; intros [|y l'] L; try discriminate; auto. cbn. f_equal. auto. }
  rewrite to_dict_id by (rewrite Nc; auto). eexists _, _. split; [reflexivity|]. split; [rewrite !modules_idents; auto|]. split; [auto|]. split; [exact Nc|].
  intros i n id H. assert (Hi : nth_error (map snd (modules_of EmptyString t')) i = Some id) by (rewrite nth_error_map, H; auto). rewrite modules_idents, Id, <- (modules_idents t EmptyString), nth_error_map in Hi.
  destruct (nth_error (modules_of EmptyString t) i) as [(n0, id')|] eqn:E0; [|discriminate]. cbn in Hi. injection Hi as ->. exists n0. split; auto. apply In_dget; [unfold dkeys; rewrite Nc; auto|].
  clear - H E0. revert i H E0. generalize (modules_of EmptyString t') (modules_of EmptyString t). induction l as [|(a, b) l IH]; intros [|(c, d) l'] [|i] H E0; try discriminate; cbn in *; [left; congruence|right; eapply IH; eauto].
Qed.
Definition ex_lists : mtree := MMod 0 [("convs", MList [MMod 1 []; MList [MMod 2 [("fc", MMod 3 [])]; MMod 4 []]]); ("head", MMod 5 [])]%string.
Example C67_lists_example : good_tree ex_lists /\ exists t', to_distiller_modulelist ex_lists =
  Ok (t', [("", ""); ("convs_0", "convs.0"); ("convs_1_0", "convs.1.0"); ("convs_1_0.fc", "convs.1.0.fc"); ("convs_1_1", "convs.1.1"); ("head", "head")]%string).
Proof.
  split; [|eexists; vm_compute; reflexivity].
  assert (L : forall id, good_tree (MMod id [])) by (intro; constructor; repeat constructor).
  constructor; [repeat constructor; (discriminate || reflexivity)|cbn; repeat constructor; cbn; intuition discriminate|vm_compute; repeat constructor; cbn; intuition discriminate|].
  constructor; [|constructor; [apply L|constructor]]. constructor. constructor; [apply L|]. constructor; [|constructor]. constructor. constructor; [|constructor; [apply L|constructor]].
  constructor; [repeat constructor; (discriminate || reflexivity)|repeat constructor; cbn; tauto|vm_compute; repeat constructor; cbn; tauto|]. constructor; [apply L|constructor].
Qed.
(** A module named like an element of a list: the element is lost, and the names of the modules that follow are wrong. *)
Theorem C67_list_clash_refuted :
  exists t t' names, to_distiller_modulelist t = Ok (t', names) /\
    NoDup (map fst (modules_of EmptyString t)) /\ ~ In 1 (map snd (modules_of EmptyString t')) /\
    (exists n, In (n, 3) (modules_of EmptyString t') /\ ~ In (n, 3) (modules_of EmptyString t) /\ exists n0, dget names n = Some n0 /\ ~ In (n0, 3) (modules_of EmptyString t)).
Proof.
  exists (MMod 0 [("a", MList [MMod 1 []]); ("a_0", MMod 2 []); ("b", MList [MMod 3 []])]%string). eexists _, _. split; [vm_compute; reflexivity|].
  split; [vm_compute; repeat constructor; cbn; intuition discriminate|]. split; [vm_compute; intuition discriminate|]. exists "b_0"%string. split; [vm_compute; tauto|]. split; [vm_compute; intuition discriminate|].
  eexists. split; [vm_compute; reflexivity|]. vm_compute; intuition discriminate.
Qed.

Print Assumptions C65_adjacency.
Print Assumptions C65_symmetric.
Print Assumptions C65_history.
Print Assumptions C65_missing_modules.
Print Assumptions C65_missing_after_dedicated.
Print Assumptions C65_cache_refuted.
Print Assumptions C66_topological_order.
Print Assumptions C66_after_dedicated_refuted.
Print Assumptions C66_cycle.
Print Assumptions C66_no_root.
Print Assumptions C67_scope_name.
Print Assumptions C67_operations.
Print Assumptions C67_trace.
Print Assumptions C67_trace_order.
Print Assumptions C67_name_clash_refuted.
Print Assumptions C67_tensor_clash_refuted.
Print Assumptions C67_module_lists.
Print Assumptions C67_list_clash_refuted.
