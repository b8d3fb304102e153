(** Model of distiller/thinning.py (recipes for removing filters and channels and their execution) and
    of the graph searches of distiller/summary_graph.py it uses; and of the forward of the thinned
    networks (torch's convolution, linear and batch-norm layers).

    A model without DataParallel wrapping is modelled (names are their own normal form).  Parameters are
    named by the pair (module name, leaf name), e.g. ("conv1", "weight"). *)
From Coq Require Import String List ZArith QArith Bool Arith.
From Verif Require Import Base Lists StructModel.
Import ListNotations.
Local Open Scope nat_scope.

(* ------------------------------------------------------------------------- *)
(** * Tensors (torch) *)

(** [g] consecutive elements starting at [j * g] *)
Definition slice {A} (g j : nat) (d : list A) : list A := firstn g (skipn (j * g) d).

(** the elements of torch.index_select(t, dim, idx), by recursion on the shape *)
Fixpoint sel_data (sh : list nat) (dim : nat) (idx : list nat) (d : list Q) : list Q :=
  match sh, dim with
  | n :: rest, O => flat_map (fun j => slice (numel rest) j d) idx
  | n :: rest, S k => flat_map (fun j => sel_data rest k idx (slice (numel rest) j d)) (seq 0 n)
  | [], _ => d
  end.
Fixpoint set_nth {A} (l : list A) (k : nat) (v : A) : list A :=
  match l, k with
  | [], _ => []
  | _ :: r, O => v :: r
  | x :: r, S k => x :: set_nth r k v
  end.
(** torch.index_select: IndexError without such a dimension, RuntimeError for an index out of range *)
Definition index_select (t : nd) (dim : nat) (idx : list nat) : res nd :=
  do n <- size t dim;
  if forallb (fun j => Nat.ltb j n) idx
  then Ok (mkND (set_nth (nd_shape t) dim (length idx)) (sel_data (nd_shape t) dim idx (nd_data t)))
  else Raise RuntimeError.
(** Tensor.resize_ (in place): elements beyond the old ones are uninitialized memory, [junk] *)
Definition resize_ (junk : nat -> Q) (t : nd) (sh : list nat) : nd :=
  mkND sh (tab (numel sh) (fun i => nth i (nd_data t) (junk i))).

(* ------------------------------------------------------------------------- *)
(** * Models *)

(** nn.Conv2d, nn.Linear, nn.BatchNorm2d and other modules *)
Inductive mkind := KConv | KLinear | KBn | KOther.
Inductive attr := AInt (n : nat) | ATen (t : nd).
(** a module: its class and the attributes thinning reads or sets (in_channels, out_channels, groups,
    in_features, out_features, num_features; running_mean, running_var) *)
Record module := mkModule { m_kind : mkind; m_attrs : dict attr }.
(** a parameter: data, gradient, whether it is in an optimizer group with non-zero momentum, and its momentum buffer *)
Record param := mkParam { p_data : nd; p_grad : option nd; p_tracked : bool; p_mom : option nd }.
Definition pname := (string * string)%type.
Definition pname_eqb (a b : pname) : bool := String.eqb (fst a) (fst b) && String.eqb (snd a) (snd b).
Definition pdict (A : Type) := list (pname * A).
Fixpoint pget {A} (d : pdict A) (k : pname) : option A :=
  match d with [] => None | (k', v) :: r => if pname_eqb k k' then Some v else pget r k end.
Fixpoint pset {A} (d : pdict A) (k : pname) (v : A) : pdict A :=
  match d with
  | [] => [(k, v)]
  | (k', v') :: r => if pname_eqb k k' then (k', v) :: r else (k', v') :: pset r k v
  end.
Record mstate := mkMs { ms_mods : dict module; ms_params : pdict param }.
Definition with_mods (m : mstate) x := mkMs x (ms_params m).
Definition with_params (m : mstate) x := mkMs (ms_mods m) x.

Definition lookup {A} (d : dict A) (k : string) : res A := match dget d k with Some v => Ok v | None => Raise KeyError end.
(** [layers[name].attr] of an integer attribute; AttributeError when it is missing *)
Definition int_attr (m : mstate) (n a : string) : res nat :=
  do x <- lookup (ms_mods m) n;
  match dget (m_attrs x) a with Some (AInt v) => Ok v | _ => Raise AttributeError end.
(** [layers[name].bias is not None]: a registered parameter *)
Definition has_bias (m : mstate) (n : string) : bool :=
  match pget (ms_params m) (n, "bias"%string) with Some _ => true | None => false end.

(* ------------------------------------------------------------------------- *)
(** * The summary graph *)

(** summary_graph.py: operations with their types, data nodes and edges *)
Record sgraph := mkG { g_ops : dict string; g_data : list string; g_edges : list (string * string) }.
Definition nexts (g : sgraph) (fwd : bool) (n : string) : list string :=
  map (fun e => if fwd then snd e else fst e)
      (filter (fun e => String.eqb (if fwd then fst e else snd e) n) (g_edges g)).
Definition memb (n : string) (l : list string) : bool := existsb (String.eqb n) l.
Definition op_type (g : sgraph) (n : string) : option string := dget (g_ops g) n.
Definition is_node (g : sgraph) (n : string) : bool := dmem (g_ops g) n || memb n (g_data g).

(** summary_graph.py:388-426 [predecessors_f] ([fwd = false]) and 449-493 [successors_f] ([fwd = true]):
    result and done_list.  The recursion is bounded by [fuel]; [search] below passes one more than the number of
    nodes, which the proofs show to be enough. *)
Fixpoint search_f (g : sgraph) (fwd : bool) (types : list string) (fuel : nat) (n : string) (done : list string)
  : list string * list string :=
  match fuel with
  | O => ([], done)
  | S fuel =>
    if is_node g n then
      let done := done ++ [n] in
      if match op_type g n with Some t => memb t types && Nat.ltb 1 (length done) | None => false end
      then ([n], done)
      else
        let next := filter (fun x => negb (memb x done)) (nexts g fwd n) in
        fold_left (fun s x => let r := search_f g fwd types fuel x (snd s) in (fst s ++ fst r, snd r)) next ([], done)
    else ([], done)
  end.
Definition search (g : sgraph) (fwd : bool) (types : list string) (n : string) : list string :=
  fst (search_f g fwd types (S (length (g_ops g) + length (g_data g))) n []).
Definition successors_f (g : sgraph) n types := search g true types n.
Definition predecessors_f (g : sgraph) n types := search g false types n.

(* ------------------------------------------------------------------------- *)
(** * Recipes *)

(** thinning.py:38-57: a parameter directive selects indices along a dimension, possibly of a 4-D view *)
Inductive pdir := D2 (dim : nat) (idx : list nat) | D4 (dim : nat) (idx : list nat) (v4 v2 : list nat).
(** a module directive sets an integer attribute or selects from a tensor attribute *)
Inductive mdir := MSet (n : nat) | MSel (dim : nat) (idx : list nat).
Record recipe := mkRecipe { r_mods : dict (dict mdir); r_params : pdict (list pdir) }.
Definition empty_recipe := mkRecipe [] [].

Definition list_eqb (a b : list nat) : bool := if list_eq_dec Nat.eq_dec a b then true else false.
(** thinning.py:106-116 [_directives_equal] *)
Definition directives_equal (a b : pdir) : bool :=
  match a, b with
  | D2 d i, D2 d' i' => Nat.eqb d d' && list_eqb i i'
  | D4 d i v w, D4 d' i' v' w' => Nat.eqb d d' && list_eqb v v' && list_eqb w w' && list_eqb i i'
  | _, _ => false
  end.
(** thinning.py:119-133 [_append_param_directive] *)
Definition append_param (r : recipe) (p : pname) (d : pdir) : recipe :=
  let ds := match pget (r_params r) p with Some l => l | None => [] end in
  if existsb (fun d' => directives_equal d' d) ds then r
  else mkRecipe (r_mods r) (pset (r_params r) p (ds ++ [d])).
(** thinning.py:136-145 [_append_module_directive] *)
Definition append_module (r : recipe) (n k : string) (v : mdir) : recipe :=
  let md := match dget (r_mods r) n with Some x => x | None => [] end in
  mkRecipe (dset (r_mods r) n (dset md k v)) (r_params r).
Definition set_param (r : recipe) (p : pname) (l : list pdir) : recipe := mkRecipe (r_mods r) (pset (r_params r) p l).
(** thinning.py:148-170 [_append_bn_thinning_directive] *)
Definition append_bn (m : mstate) (r : recipe) (bn : string) (idx : list nat) : res recipe :=
  do x <- lookup (ms_mods m) bn;
  match m_kind x with
  | KBn =>
    let r := append_module r bn "num_features" (MSet (length idx)) in
    let r := append_module r bn "running_mean" (MSel 0 idx) in
    let r := append_module r bn "running_var" (MSel 0 idx) in
    Ok (set_param (set_param r (bn, "weight"%string) [D2 0 idx]) (bn, "bias"%string) [D2 0 idx])
  | _ => Raise AssertionError
  end.

Definition append_if (b : bool) (r : recipe) (p : pname) (d : pdir) : recipe := if b then append_param r p d else r.

Section Filters.
  Variable m : mstate.
  Variable g : sgraph.
  (** the layer whose zero filters are removed (the loop variable the closures see) and the kept indices *)
  Variable l0 : string.
  Variable idx : list nat.

  (** thinning.py:337-352 [handle_linear_successor]; [int(math.sqrt(x))] is the integer square root *)
  Definition linear_successor (r : recipe) (s : string) : res recipe :=
    do inf <- int_attr m s "in_features";
    do oc <- int_attr m l0 "out_channels";
    do of_ <- int_attr m s "out_features";
    if Nat.eqb oc 0 then Raise ZeroDivisionError else
    let fm := inf / oc in
    let r := append_module r s "in_features" (MSet (fm * length idx)) in
    let h := Nat.sqrt fm in
    Ok (append_param r (s, "weight"%string) (D4 1 idx [of_; oc; h; h] [of_; fm * length idx])).

  (** thinning.py:354-360 [handle_bn_layers] *)
  Definition bn_successors (r : recipe) (n : string) : res recipe :=
    match successors_f g n ["BatchNormalization"%string] with
    | [] => Ok r
    | [b] => append_bn m r b idx
    | _ => Raise AssertionError
    end.

  (** thinning.py:292-335 [handle_layer] and [handle_conv_successor]; the recursion through depth-wise
      convolutions is bounded by [fuel] (RecursionError is a RuntimeError) *)
  Fixpoint filters_layer (fuel : nat) (n leaf : string) (r : recipe) : res recipe :=
    match fuel with
    | O => Raise RuntimeError
    | S fuel =>
      do x <- lookup (ms_mods m) n;
      match m_kind x with
      | KConv =>
        let r := append_module r n "out_channels" (MSet (length idx)) in
        let r := append_param r (n, leaf) (D2 0 idx) in
        let r := append_if (has_bias m n) r (n, "bias"%string) (D2 0 idx) in
        do r <- foldM (fun r s =>
          do y <- lookup (ms_mods m) s;
          match m_kind y with
          | KConv =>
            let r := append_module r s "in_channels" (MSet (length idx)) in
            do gr <- int_attr m s "groups";
            do ic <- int_attr m s "in_channels";
            if Nat.eqb gr 1 then Ok (append_param r (s, "weight"%string) (D2 1 idx))
            else if Nat.eqb gr ic then
              let r := append_param r (s, "weight"%string) (D2 0 idx) in
              let r := append_module r s "groups" (MSet (length idx)) in
              filters_layer fuel s "weight" r
            else Raise ValueError
          | KLinear => linear_successor r s
          | _ => Ok r
          end) (successors_f g n ["Conv"; "Gemm"]%string) r;
        bn_successors r n
      | _ => Raise AssertionError
      end
    end.
End Filters.

(** torch.nonzero of the per-row sums of absolute values *)
Definition nonzero_rows (sums : list Q) : list nat :=
  filter (fun i => negb (Qeq_bool (nth i sums 0%Q) 0%Q)) (seq 0 (length sums)).
(** [filter_view.abs().sum(dim=1)] of a tensor viewed as (size(0), -1) *)
Definition filter_sums (t : nd) : list Q :=
  let n := nth 0 (nd_shape t) 0 in
  map (fun j => l1_norm (slice (length (nd_data t) / n) j (nd_data t))) (seq 0 n).

Definition layer_fuel (m : mstate) : nat := S (length (ms_mods m)).

(** thinning.py:283-386 [create_thinning_recipe_filters] *)
Definition recipe_filters (m : mstate) (g : sgraph) : res recipe :=
  foldM (fun r (e : pname * param) =>
    let t := p_data (snd e) in
    if negb (Nat.eqb (ndim t) 4) then Ok r else
    let nz := nonzero_rows (filter_sums t) in
    if Nat.eqb (length nz) 0 then Raise ValueError
    else if Nat.leb (nth 0 (nd_shape t) 0) (length nz) then Ok r
    else filters_layer m g (fst (fst e)) nz (layer_fuel m) (fst (fst e)) (snd (fst e)) r)
    (ms_params m) empty_recipe.

Section Channels.
  Variable m : mstate.
  Variable g : sgraph.
  Variable idx : list nat.

  (** thinning.py:199-252 [handle_layer] of the channel recipe *)
  Fixpoint channels_layer (fuel : nat) (n leaf : string) (r : recipe) : res recipe :=
    match fuel with
    | O => Raise RuntimeError
    | S fuel =>
      do x <- lookup (ms_mods m) n;
      do dim <- (match m_kind x with
                 | KConv => do gr <- int_attr m n "groups"; Ok (if Nat.eqb gr 1 then 1 else 0)
                 | KLinear => Ok 1
                 | _ => Raise AssertionError
                 end);
      let r := append_module r n "in_channels" (MSet (length idx)) in
      let r := append_param r (n, leaf) (D2 dim idx) in
      do r <- foldM (fun r s =>
        let r := append_module r s "out_channels" (MSet (length idx)) in
        do gr <- int_attr m s "groups";
        if Nat.eqb gr 1 then
          let r := append_param r (s, "weight"%string) (D2 0 idx) in
          Ok (append_if (has_bias m s) r (s, "bias"%string) (D2 0 idx))
        else
          do ic <- int_attr m s "in_channels";
          if Nat.eqb gr ic then
            let r := append_param r (s, "weight"%string) (D2 0 idx) in
            let r := append_if (has_bias m s) r (s, "bias"%string) (D2 0 idx) in
            let r := append_module r s "groups" (MSet (length idx)) in
            channels_layer fuel s "weight" r
          else Raise ValueError) (predecessors_f g n ["Conv"%string]) r;
      foldM (fun r b => append_bn m r b idx) (predecessors_f g n ["BatchNormalization"%string]) r
    end.
End Channels.

(** [param.abs().sum(dim=0)] of a matrix *)
Definition column_sums (t : nd) : list Q :=
  let c := nth 1 (nd_shape t) 0 in
  map (fun j => l1_norm (col (nth 0 (nd_shape t) 0) c (nd_data t) j)) (seq 0 c).
(** norms.py [channels_lp_norm] with p = 1 of a 4-D tensor: per input channel, over all filters *)
Definition channel_sums (t : nd) : list Q :=
  let f := nth 0 (nd_shape t) 0 in let c := nth 1 (nd_shape t) 0 in
  let k := numel (skipn 2 (nd_shape t)) in
  map (fun j => l1_norm (flat_map (fun o => slice k j (slice (c * k) o (nd_data t))) (seq 0 f))) (seq 0 c).

(** thinning.py:189-280 [create_thinning_recipe_channels] *)
Definition recipe_channels (m : mstate) (g : sgraph) : res recipe :=
  foldM (fun r (e : pname * param) =>
    let t := p_data (snd e) in
    if negb (Nat.eqb (ndim t) 2 || Nat.eqb (ndim t) 4) then Ok r else
    let nz := nonzero_rows (if Nat.eqb (ndim t) 2 then column_sums t else channel_sums t) in
    if Nat.eqb (length nz) 0 then Raise ValueError
    else if Nat.leb (nth 1 (nd_shape t) 0) (length nz) then Ok r
    else channels_layer m g nz (layer_fuel m) (fst (fst e)) (snd (fst e)) r)
    (ms_params m) empty_recipe.

(* ------------------------------------------------------------------------- *)
(** * Execution of a recipe *)

(** the optimizer passed to thinning: None, or whether it is an SGD *)
Definition optimizer := option bool.
Definition shape_eqb (a b : nd) : bool := list_eqb (nd_shape a) (nd_shape b).

Section Execute.
  Variable junk : nat -> Q.
  Variable opt : optimizer.
  Variable loaded : bool.

  (** thinning.py:443-473 [_optimizer_thinning]: NotImplementedError for anything but SGD *)
  Definition thin_momentum (p : param) (dim : nat) (idx : list nat) (new_shape : option (list nat)) : res (option nd) :=
    match opt with
    | None => Ok (p_mom p)
    | Some false => Raise NotImplementedError
    | Some true =>
      if p_tracked p then
        match p_mom p with
        | None => Ok None
        | Some b => do b' <- index_select b dim idx;
                    Ok (Some (match new_shape with None => b' | Some sh => resize_ junk b' sh end))
        end
      else Ok (p_mom p)
    end.

  (** assignment to [param.grad]: torch refuses a gradient of another shape *)
  Definition set_grad (d g : nd) : res (option nd) := if shape_eqb d g then Ok (Some g) else Raise RuntimeError.

  (** thinning.py:511-545: one directive on the data, the gradient and the momentum buffer *)
  Definition thin_param (p : param) (d : pdir) : res param :=
    match d with
    | D2 dim idx =>
      do n <- size (p_data p) dim;
      do data <- (if Nat.eqb n (length idx) then Ok (p_data p)
                  else if Nat.ltb (length idx) n then index_select (p_data p) dim idx else Raise AssertionError);
      match p_grad p with
      | None => Ok (mkParam data None (p_tracked p) (p_mom p))
      | Some gr =>
        do k <- size gr dim;
        if Nat.eqb k (length idx) then Ok (mkParam data (Some gr) (p_tracked p) (p_mom p))
        else
          do gr' <- index_select gr dim idx;
          do og <- set_grad data gr';
          do mom <- thin_momentum p dim idx None;
          Ok (mkParam data og (p_tracked p) mom)
      end
    | D4 dim idx v4 v2 =>
      do sv <- view (p_data p) v4;
      do n <- size (p_data p) dim;
      do q <- (if Nat.eqb n (length idx) then Ok p
               else
                 do data <- index_select sv dim idx;
                 match p_grad p with
                 | None => Ok (mkParam data None (p_tracked p) (p_mom p))
                 | Some gr =>
                   do gv <- view gr v4;
                   do k <- size gv dim;
                   if Nat.eqb k (length idx) then Ok (mkParam data (Some gr) (p_tracked p) (p_mom p))
                   else
                     do gr' <- index_select gv dim idx;
                     do og <- set_grad data gr';
                     do mom <- thin_momentum p dim idx (Some v2);
                     Ok (mkParam data og (p_tracked p) mom)
                 end);
      do data <- view (p_data q) v2;
      match p_grad q with
      | None => Ok (mkParam data None (p_tracked q) (p_mom q))
      | Some gr => do og <- set_grad data (resize_ junk gr v2); Ok (mkParam data og (p_tracked q) (p_mom q))
      end
    end.
  Definition dir_dim (d : pdir) : nat := match d with D2 k _ | D4 k _ _ _ => k end.
  Definition dir_idx (d : pdir) : list nat := match d with D2 _ i | D4 _ i _ _ => i end.

  (** thinning.py:547-552: the mask of the parameter; the dictionary is empty when there is no scheduler *)
  Definition thin_mask (masks : pdict (option nd)) (p : pname) (d : pdir) : res (pdict (option nd)) :=
    if loaded then Ok masks else
    match masks with
    | [] => Ok masks
    | _ =>
      match pget masks p with
      | None => Raise KeyError
      | Some None => Ok masks
      | Some (Some k) =>
        do n <- size k (dir_dim d);
        if Nat.eqb n (length (dir_idx d)) then Ok masks
        else do k' <- index_select k (dir_dim d) (dir_idx d); Ok (pset masks p (Some k'))
      end
    end.

  (** thinning.py:483-498: module directives *)
  Definition exec_module_dir (x : module) (k : string) (v : mdir) : res module :=
    match v with
    | MSet n => Ok (mkModule (m_kind x) (dset (m_attrs x) k (AInt n)))
    | MSel dim idx =>
      match dget (m_attrs x) k with
      | Some (ATen t) =>
        do n <- size t dim;
        if Nat.eqb n (length idx) then Ok x
        else do t' <- index_select t dim idx; Ok (mkModule (m_kind x) (dset (m_attrs x) k (ATen t')))
      | _ => Raise AttributeError
      end
    end.
  Definition exec_modules (mods : dict module) (r : recipe) : res (dict module) :=
    foldM (fun mods (e : string * dict mdir) =>
      foldM (fun mods (kv : string * mdir) =>
        do x <- lookup mods (fst e);
        do x' <- exec_module_dir x (fst kv) (snd kv);
        Ok (dset mods (fst e) x')) (snd e) mods) (r_mods r) mods.

  (** thinning.py:502-552: the directives of one parameter *)
  Definition exec_param (s : pdict param * pdict (option nd)) (e : pname * list pdir)
    : res (pdict param * pdict (option nd)) :=
    match pget (fst s) (fst e) with
    | None => Raise AssertionError
    | Some _ =>
      foldM (fun s d =>
        match pget (fst s) (fst e) with
        | None => Raise AssertionError
        | Some p =>
          do p' <- thin_param p d;
          do masks <- thin_mask (snd s) (fst e) d;
          Ok (pset (fst s) (fst e) p', masks)
        end) (snd e) s
    end.

  (** thinning.py:476-552 [execute_thinning_recipe] *)
  Definition exec_recipe (m : mstate) (masks : pdict (option nd)) (r : recipe) : res (mstate * pdict (option nd)) :=
    do mods <- exec_modules (ms_mods m) r;
    match r_params r with
    | [] => Raise AssertionError
    | _ =>
      do s <- foldM exec_param (r_params r) (ms_params m, masks);
      Ok (mkMs mods (fst s), snd s)
    end.
End Execute.

(** thinning.py:431-440 [execute_thinning_recipes_list] *)
Definition exec_recipes (junk : nat -> Q) (m : mstate) (masks : pdict (option nd)) (l : list recipe) : res (mstate * pdict (option nd)) :=
  foldM (fun s r => exec_recipe junk None true (fst s) (snd s) r) l (m, masks).

(** thinning.py:173-186 [apply_and_save_recipe]: the model's list of recipes grows by the executed one *)
Definition apply_and_save (junk : nat -> Q) (opt : optimizer) (m : mstate) (masks : pdict (option nd)) (saved : list recipe) (r : recipe)
  : res (mstate * pdict (option nd) * list recipe) :=
  match r_mods r, r_params r with
  | [], [] => Ok (m, masks, saved)
  | _, _ => do s <- exec_recipe junk opt false m masks r; Ok (fst s, snd s, saved ++ [r])
  end.

(** thinning.py:78-91 [remove_channels], [remove_filters]; the graph of the current model is a parameter *)
Definition remove_filters (junk : nat -> Q) (opt : optimizer) (g : sgraph) (m : mstate) (masks : pdict (option nd)) (saved : list recipe) :=
  do r <- recipe_filters m g; apply_and_save junk opt m masks saved r.
Definition remove_channels (junk : nat -> Q) (opt : optimizer) (g : sgraph) (m : mstate) (masks : pdict (option nd)) (saved : list recipe) :=
  do r <- recipe_channels m g; apply_and_save junk opt m masks saved r.

(* ------------------------------------------------------------------------- *)
(** * Networks: what the layers compute (torch) *)

(** a feature map: for each channel the values at its positions; a vector of features has one position per channel *)
Definition fmap := list (list Q).
(** convolution geometry: number of output positions, and the input position under each kernel tap ([None]: padding) *)
Record geom := mkGeom { ge_out : nat; ge_tap : nat -> nat -> option nat }.

Inductive nop :=
| OConv (ge : geom)                     (* nn.Conv2d *)
| OLinear                               (* flatten, then nn.Linear *)
| OBn                                   (* nn.BatchNorm2d in evaluation mode *)
| OChan (f : list Q -> list Q)          (* an operation on each channel: ReLU, pooling, dropout in evaluation mode *)
| OAdd                                  (* element-wise sum of two values of equal shape *)
| OOther (f : list fmap -> res fmap).   (* anything else: concatenation, softmax, ... *)
Record node := mkNode { n_name : string; n_op : nop; n_in : list string }.

Definition dot (w : list Q) (f : nat -> Q) : Q := qsum (map (fun k => (nth k w 0 * f k)%Q) (seq 0 (length w))).
Definition tap (ge : geom) (x : list Q) (s k : nat) : Q :=
  match ge_tap ge s k with Some q => nth q x 0%Q | None => 0%Q end.
Definition bias_at (b : option nd) (o : nat) : Q := match b with Some t => nth o (nd_data t) 0%Q | None => 0%Q end.

(** F.conv2d with [gr] groups; RuntimeError when the shapes do not fit *)
Definition conv (w : nd) (b : option nd) (gr : nat) (ge : geom) (x : fmap) : res fmap :=
  match nd_shape w with
  | O_ :: C :: ks =>
    let k := numel ks in
    if Nat.eqb (length (nd_data w)) (O_ * (C * k)) && negb (Nat.eqb gr 0) && Nat.eqb (C * gr) (length x) && Nat.eqb (O_ mod gr) 0
       && match b with Some t => Nat.eqb (length (nd_data t)) O_ | None => true end
    then Ok (map (fun o =>
           map (fun s => (bias_at b o + qsum (map (fun c =>
             dot (slice k c (slice (C * k) o (nd_data w))) (tap ge (nth (o / (O_ / gr) * C + c) x []) s)) (seq 0 C)))%Q)
             (seq 0 (ge_out ge))) (seq 0 O_))
    else Raise RuntimeError
  | _ => Raise RuntimeError
  end.
(** F.linear of the flattened input *)
Definition linear (w : nd) (b : option nd) (x : fmap) : res fmap :=
  match nd_shape w with
  | [O_; F] =>
    if Nat.eqb (length (nd_data w)) (O_ * F) && Nat.eqb (length (concat x)) F
       && match b with Some t => Nat.eqb (length (nd_data t)) O_ | None => true end
    then Ok (map (fun o => [(bias_at b o + dot (slice F o (nd_data w)) (fun i => nth i (concat x) 0))%Q]) (seq 0 O_))
    else Raise RuntimeError
  | _ => Raise RuntimeError
  end.
(** F.batch_norm in evaluation mode; [rs v] stands for 1 / sqrt (v + eps) *)
Definition bn (rs : Q -> Q) (w b mean var : nd) (x : fmap) : res fmap :=
  let ok t := Nat.eqb (length (nd_data t)) (length x) in
  if ok w && ok b && ok mean && ok var
  then Ok (map (fun c => map (fun v => ((v - nth c (nd_data mean) 0) * rs (nth c (nd_data var) 0) * nth c (nd_data w) 0 + nth c (nd_data b) 0)%Q)
                             (nth c x [])) (seq 0 (length x)))
  else Raise RuntimeError.
Definition fadd (x y : fmap) : res fmap :=
  if list_eqb (map (@length Q) x) (map (@length Q) y)
  then Ok (map2 (map2 Qplus) x y) else Raise RuntimeError.

Definition get_param (m : mstate) (p : pname) : res nd :=
  match pget (ms_params m) p with Some q => Ok (p_data q) | None => Raise AttributeError end.
Definition opt_param (m : mstate) (p : pname) : option nd := option_map p_data (pget (ms_params m) p).
Definition ten_attr (m : mstate) (n a : string) : res nd :=
  do x <- lookup (ms_mods m) n;
  match dget (m_attrs x) a with Some (ATen t) => Ok t | _ => Raise AttributeError end.

Definition arg (l : list fmap) (i : nat) : res fmap := match nth_error l i with Some x => Ok x | None => Raise TypeError end.
Definition apply_op (rs : Q -> Q) (m : mstate) (n : string) (op : nop) (xs : list fmap) : res fmap :=
  match op with
  | OConv ge =>
    do x <- arg xs 0; do w <- get_param m (n, "weight"%string); do gr <- int_attr m n "groups";
    conv w (opt_param m (n, "bias"%string)) gr ge x
  | OLinear => do x <- arg xs 0; do w <- get_param m (n, "weight"%string); linear w (opt_param m (n, "bias"%string)) x
  | OBn =>
    do x <- arg xs 0; do w <- get_param m (n, "weight"%string); do b <- get_param m (n, "bias"%string);
    do mean <- ten_attr m n "running_mean"; do var <- ten_attr m n "running_var"; bn rs w b mean var x
  | OChan f => do x <- arg xs 0; Ok (map f x)
  | OAdd => do x <- arg xs 0; do y <- arg xs 1; fadd x y
  | OOther f => f xs
  end.
(** the forward: nodes in execution order; the network's input is called [""] *)
Definition net_input : string := "".
Fixpoint args (env : dict fmap) (l : list string) : res (list fmap) :=
  match l with [] => Ok [] | n :: r => do x <- lookup env n; do xs <- args env r; Ok (x :: xs) end.
Definition forward (rs : Q -> Q) (m : mstate) (net : list node) (x : fmap) : res (dict fmap) :=
  foldM (fun env nd => do xs <- args env (n_in nd); do y <- apply_op rs m (n_name nd) (n_op nd) xs; Ok (dset env (n_name nd) y))
        net [(net_input, x)].

(** the summary graph of a network: every operation has one output data node (the data nodes of the parameters,
    which have no predecessors and so are never on a path between operations, are left out) *)
Definition op_ty (op : nop) : string :=
  match op with OConv _ => "Conv" | OLinear => "Gemm" | OBn => "BatchNormalization" | OChan _ => "Relu" | OAdd => "Add" | OOther _ => "Other" end.
Definition data_of (n : string) : string := String.append "out:" n.
Definition graph_of (net : list node) : sgraph :=
  mkG (map (fun n => (n_name n, op_ty (n_op n))) net)
      (data_of net_input :: map (fun n => data_of (n_name n)) net)
      (flat_map (fun n => map (fun i => (data_of i, n_name n)) (n_in n) ++ [(n_name n, data_of (n_name n))]) net).
