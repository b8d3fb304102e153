(** Model of the summaries of a model's size and cost: distiller/model_summaries.py:82-226 (sparsity of the weights and of the
    masks, performance summary), distiller/summary_graph.py:277-353 (cost attributes of the graph) and
    distiller/utils.py:631-649 (make_non_parallel_copy).

    Simplifications: a data frame is the list of its rows; the columns 'Std' (irrational) and 'Attrs' and the formatting of sizes
    to strings are left out; floating-point arithmetic is exact; the forward pass of the performance summary is given as the
    sequence of the calls of modules it makes, in the order in which they finish (the order in which PyTorch runs the hooks). *)
From Coq Require Import String List ZArith QArith Qabs Qround Bool Arith.
From Verif Require Import Base Names Lists SchedModel PrunerModel StructModel QzrModel.
Import ListNotations.
Open Scope list_scope.

(* ------------------------------------------------------------------------- *)
(** * Sparsity of weights and masks *)

(** [sub in name] *)
Fixpoint str_in (sub name : string) : bool :=
  prefix sub name || match name with EmptyString => false | String _ s => str_in sub s end.
(** model_summaries.py:91: any(type in name for type in ['weight', 'bias']) *)
Definition weight_or_bias (name : string) : bool := existsb (fun ty => str_in ty name) ["weight"; "bias"]%string.
(** param.dim() in param_dims and ... *)
Definition sel_param (dims : list nat) (e : string * nd) : bool := existsb (Nat.eqb (ndim (snd e))) dims && weight_or_bias (fst e).

Record wrow := mkRow { w_name : string; w_shape : list nat; w_dense : nat; w_nnz : Z; w_cols : Q; w_rows : Q; w_ch : Q; w_2d : Q; w_3d : Q; w_fine : Q; w_mean : Q; w_absmean : Q }.

(** [int(x)] of a float *)
Definition trunc (x : Q) : Z := if Qle_bool 0 x then Qfloor x else Qceiling x.
Definition nq (n : nat) : Q := Zq (Z.of_nat n).

(** one row, model_summaries.py:92-110; [mean] is a division by the number of elements, which [density] has found not to be 0 *)
Definition weight_row (e : string * nd) : res wrow :=
  let (name, t) := e in
  let n := length (nd_data t) in
  do d <- density (nd_data t);
  do cols <- sparsity_cols t true;
  do rows <- sparsity_rows t true;
  do ch <- sparsity_ch t;
  do s2 <- sparsity_2D t;
  do s3 <- sparsity_3D t;
  Ok (mkRow name (nd_shape t) n (trunc (d * nq n)) (cols * 100) (rows * 100) (ch * 100) (s2 * 100) (s3 * 100) ((1 - d) * 100)
            (qsum (nd_data t) / nq n) (qsum (map Qabs (nd_data t)) / nq n)).

(** weights_sparsity_summary, model_summaries.py:82-122: the rows, the row of the totals *)
Definition weights_step (dims : list nat) (acc : list wrow * (nat * Q)) (e : string * nd) : res (list wrow * (nat * Q)) :=
  let '(rows, (n, nnz)) := acc in
  if sel_param dims e then
    do d <- density (nd_data (snd e));
    do r <- weight_row e;
    Ok (rows ++ [r], ((n + length (nd_data (snd e)))%nat, nnz + nq (length (nd_data (snd e))) * d))
  else Ok acc.
Record totals := mkTot { tot_dense : nat; tot_nnz : Z; tot_sparsity : Q }.
Definition weights_summary (dims : list nat) (sd : list (string * nd)) : res (list wrow * totals) :=
  do acc <- foldM (weights_step dims) sd ([], (0%nat, 0));
  let '(rows, (n, nnz)) := acc in
  if Nat.eqb n 0 then Raise ZeroDivisionError
  else Ok (rows, mkTot n (trunc nnz) ((1 - nnz / nq n) * 100)).

(** masks_sparsity_summary, model_summaries.py:135-154: [masks] is the scheduler's zeros_mask_dict, [None] the mask of a
    parameter that is not masked *)
Definition masks_step (dims : list nat) (masks : dict (option (list Q))) (acc : list (string * Q) * (nat * Q)) (e : string * nd)
  : res (list (string * Q) * (nat * Q)) :=
  let '(rows, (n, nnz)) := acc in
  if sel_param dims e then
    do m <- match dget masks (fst e) with Some m => Ok m | None => Raise KeyError end;
    do d <- match m with None => Ok 1 | Some m => density m end;
    Ok (rows ++ [(fst e, (1 - d) * 100)], ((n + length (nd_data (snd e)))%nat, nnz + nq (length (nd_data (snd e))) * d))
  else Ok acc.
Definition masks_summary (dims : list nat) (masks : dict (option (list Q))) (sd : list (string * nd)) : res (list (string * Q) * Q) :=
  do acc <- foldM (masks_step dims masks) sd ([], (0%nat, 0));
  let '(rows, (n, nnz)) := acc in
  if Nat.eqb n 0 then Raise AssertionError else Ok (rows, (1 - nnz / nq n) * 100).

(* ------------------------------------------------------------------------- *)
(** * Performance summary *)

(** what the hooks read of a module: torch.nn.Conv2d (in_channels, groups, kernel_size, shape of the weights), torch.nn.Linear
    (shape of the weights) *)
Inductive layer := LConv (cin groups : nat) (kh kw : nat) (wshape : list nat) | LLinear (wshape : list nat) | LOther.
(** a tensor as distiller.volume sees it: single precision or not, shape *)
Record fmap := mkFm { f_single : bool; f_shape : list nat }.
(** utils.py:157-163 [volume] *)
Definition volume (t : fmap) : res nat := if f_single t then Ok (numel (f_shape t)) else Raise ValueError.

(** a call of a module in the forward pass: which module, its first input, its output *)
Record call := mkCall { k_mod : nat; k_in : fmap; k_out : fmap }.
Record prow := mkProw { p_name : option string; p_ifm : list nat; p_ifm_vol : nat; p_ofm : list nat; p_ofm_vol : nat; p_weights : nat; p_macs : Z }.

(** distiller/__init__.py:76-88 [model_find_module_name] *)
Definition find_module_name (m : nmod) (id : nat) : option string :=
  match find (fun nm => Nat.eqb (mid (snd nm)) id) (named_modules m) with Some nm => Some (fst nm) | None => None end.

(** module_visitor, model_summaries.py:190-200 *)
Definition module_visitor (m : nmod) (c : call) (weights : nat) (macs : Q) : res prow :=
  do iv <- volume (k_in c);
  do ov <- volume (k_out c);
  Ok (mkProw (find_module_name m (k_mod c)) (f_shape (k_in c)) iv (f_shape (k_out c)) ov weights (trunc macs)).
(** conv_visitor, 162-175, fc_visitor, 178-187; a module's parameters are taken to be in single precision *)
Definition visitor (layers : nat -> layer) (m : nmod) (c : call) : res prow :=
  match layers (k_mod c) with
  | LConv cin groups kh kw wshape =>
      do ov <- volume (k_out c);
      if Nat.eqb groups 0 then Raise ZeroDivisionError else
      module_visitor m c (numel wshape) (nq ov * (nq cin / nq groups * nq kh * nq kw))
  | LLinear wshape => module_visitor m c (numel wshape) (nq (numel wshape))
  | LOther => Raise AssertionError
  end.
(** torch.nn.Module.named_children: each module object once *)
Fixpoint children_from (l : list (string * nmod)) (memo : list nat) : list nmod :=
  match l with
  | [] => []
  | (_, c) :: l => if mem_nat (mid c) memo then children_from l memo else c :: children_from l (mid c :: memo)
  end.
(** torch.nn.Module.apply: the modules to which the function is applied, in order, with repetitions *)
Fixpoint apply_seq (m : nmod) : list nat :=
  match m with
  | Mod i _ _ kids =>
      (fix go (l : list (string * nmod)) (memo : list nat) : list nat :=
         match l with
         | [] => []
         | (_, c) :: l => if mem_nat (mid c) memo then go l memo else apply_seq c ++ go l (mid c :: memo)
         end) kids [] ++ [i]
  end.
(** the hooks of a module: one for each time install_perf_collector has seen it, model_summaries.py:204-211 *)
Definition hooks (layers : nat -> layer) (m : nmod) (id : nat) : nat :=
  match layers id with LOther => 0 | _ => count_occ Nat.eq_dec (apply_seq m) id end.
(** the hooks of a call run after it, one after the other; nothing is ever put into [memo] *)
Fixpoint run_hooks (n : nat) (layers : nat -> layer) (m : nmod) (c : call) (df : list prow) : res (list prow) :=
  match n with
  | O => Ok df
  | S n => do r <- visitor layers m c; run_hooks n layers m c (df ++ [r])
  end.
(** model_performance_summary, model_summaries.py:202-226, on the copy of the model *)
Definition performance_summary (layers : nat -> layer) (m : nmod) (calls : list call) : res (list prow) :=
  foldM (fun df c => run_hooks (hooks layers m (k_mod c)) layers m c df) calls [].

(* ------------------------------------------------------------------------- *)
(** * Cost attributes of the summary graph *)

Inductive oty := OConv (kernel : list nat) (group : positive) | OGemm | OMaxPool | OElse.
Record gop := mkGop { g_ty : oty; g_in : list string; g_out : list string }.
Record gattrs := mkAttrs { a_macs : Z; a_fp : Q; a_ai : Z }.

Definition first (l : list string) : res string := match l with x :: _ => Ok x | [] => Raise IndexError end.
(** summary_graph.py:277-278 [param_shape] *)
Definition param_shape (ps : dict (list nat)) (id : string) : res (list nat) := match dget ps id with Some s => Ok s | None => Raise KeyError end.
Definition index (l : list nat) (i : nat) : res nat := match nth_error l i with Some x => Ok x | None => Raise IndexError end.
(** try: ... except IndexError: ... *)
Definition try_index {A} (m : res A) (h : A) : res A := match m with Raise IndexError => Ok h | r => r end.

(** add_macs_attr, summary_graph.py:287-321, for one operation *)
Definition op_macs (ps : dict (list nat)) (o : gop) : res Z :=
  match g_ty o with
  | OConv kernel group =>
      do co <- first (g_out o);
      do ci <- first (g_in o);
      do so <- param_shape ps co;
      try_index (do si <- param_shape ps ci; do n <- index si 1;
                 Ok (trunc (nq (numel so * numel kernel * n) / Zq (Zpos group)))) 0%Z
  | OGemm =>
      do co <- first (g_out o);
      do ci <- first (g_in o);
      do nn <- try_index (do si <- param_shape ps ci; do n_ifm <- index si 1;
                          do so <- param_shape ps co; do n_ofm <- index so 1; Ok (n_ifm, n_ofm)) (0, 0)%nat;
      Ok (Z.of_nat (snd nn * fst nn))
  | _ => Ok 0%Z
  end.
(** add_footprint_attr, summary_graph.py:323-347 *)
Definition op_footprint (ps : dict (list nat)) (o : gop) : res Q :=
  match g_ty o with
  | OElse => Ok 0
  | _ =>
      do co <- first (g_out o);
      do ci <- first (g_in o);
      do so <- param_shape ps co;
      do si <- param_shape ps ci;
      match g_ty o with
      | OMaxPool => Ok (nq (numel so) + nq (numel si))
      | _ =>
          let '(kernel, group) := match g_ty o with OConv k g => (numel k, g) | _ => (1%nat, 1%positive) end in
          do n_ifm <- index si 1;
          do n_ofm <- index so 1;
          Ok (nq (numel so) + nq (numel si) + nq (kernel * n_ifm * n_ofm) / Zq (Zpos group))
      end
  end.
(** add_arithmetic_intensity_attr, summary_graph.py:349-353 *)
Definition op_ai (macs : Z) (fp : Q) : Z := if Qeq_bool fp 0 then 0%Z else Qfloor ((Zq macs + (1 # 2) * fp) / fp).

Fixpoint mapR {A B} (f : A -> res B) (l : list A) : res (list B) :=
  match l with [] => Ok [] | a :: l => do b <- f a; do r <- mapR f l; Ok (b :: r) end.
(** the end of the constructor, summary_graph.py:195-197 *)
Definition cost_attrs (ps : dict (list nat)) (ops : list gop) : res (list gattrs) :=
  do ms <- mapR (op_macs ps) ops;
  do fs <- mapR (op_footprint ps) ops;
  Ok (map (fun mf => mkAttrs (fst mf) (snd mf) (op_ai (fst mf) (snd mf))) (combine ms fs)).

(* ------------------------------------------------------------------------- *)
(** * make_non_parallel_copy *)

(** a module: identity, is it an nn.DataParallel, children *)
Inductive dmod := DMod (id : nat) (dp : bool) (kids : list (string * dmod)).
Definition d_dp (m : dmod) : bool := match m with DMod _ b _ => b end.
Definition d_kids (m : dmod) : list (string * dmod) := match m with DMod _ _ k => k end.
Definition d_id (m : dmod) : nat := match m with DMod i _ _ => i end.
(** replace_data_parallel, utils.py:636-641: a child that is an nn.DataParallel (whose only child is its attribute [module]) is
    replaced by its module; the recursion changes that module in place.  named_children yields a module object once: a second
    reference to it in the same container keeps the wrapper, whose content has been changed in place *)
Fixpoint replace_dp (m : dmod) : dmod :=
  match m with
  | DMod i b kids =>
      DMod i b ((fix go (l : list (string * dmod)) (memo : list nat) : list (string * dmod) :=
                  match l with
                  | [] => []
                  | (n, c) :: l =>
                      (n, if mem_nat (d_id c) memo then replace_dp c
                          else match c with DMod _ true [(_, x)] => replace_dp x | _ => replace_dp c end) :: go l (d_id c :: memo)
                  end) kids [])
  end.
(** utils.py:643-649 *)
Definition make_non_parallel_copy (m : dmod) : dmod :=
  replace_dp (match m with DMod _ true [(_, x)] => x | _ => m end).
