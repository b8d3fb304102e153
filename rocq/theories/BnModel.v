(** Model of distiller/quantization/sim_bn_fold.py and distiller/model_transforms.py:
    simulated folding of batch-norm into the preceding convolution / linear layer, freezing,
    and the fusing pass over the model graph.

    Simplifications.  Exact rationals; the square root and the reciprocal square root are
    parameters [sq], [rsq] of every definition (torch.sqrt / torch.rsqrt).  The layer is the
    [layer] of RangeModel (any convolution or linear layer on a 2-D batch, given by its windows);
    the whole batch is one flat tensor, and the values of a channel are the outputs at the
    positions of that channel.  Gradients are not modelled. *)
From Coq Require Import String List ZArith QArith Qabs Bool Arith Lia Lqa.
From Verif Require Import Base QuantModel RangeModel.
Import ListNotations.
Open Scope Q_scope.

(** nn.BatchNorm{1,2,3}d: affine flag, weight, bias, running_mean, running_var, eps, momentum
    (None: cumulative average), num_batches_tracked *)
Record bn := mkBn {
  bn_affine : bool; bn_gamma : list Q; bn_beta : list Q;
  bn_mean : list Q; bn_var : list Q; bn_eps : Q; bn_mom : option Q; bn_batches : Z }.

(** SimulatedFoldedBatchNorm, sim_bn_fold.py:28-71: the wrapped weight and bias, the batch-norm,
    freeze_bn_delay and the frozen flag *)
Record sfb := mkSfb { s_w : list (list Q); s_b : option (list Q); s_bn : bn; s_delay : Z; s_frozen : bool }.

(** _get_all_parameters, sim_bn_fold.py:244-249: gamma is 1. and beta 0. without affine parameters *)
Definition gam (n : bn) (c : nat) : Q := if bn_affine n then nth c (bn_gamma n) 0 else 1.
Definition bet (n : bn) (c : nat) : Q := if bn_affine n then nth c (bn_beta n) 0 else 0.
(** "b if b is not None else 0" *)
Definition bia (b : option (list Q)) (c : nat) : Q := match b with Some l => nth c l 0 | None => 0 end.
(** bn.num_features *)
Definition feats (n : bn) : nat := length (bn_mean n).

(** w * self.broadcast_correction_weight(f), sim_bn_fold.py:103,115,145-155: row c times f c *)
Definition scale_rows (f : nat -> Q) (W : list (list Q)) : list (list Q) := mapi (fun c r => map (fun w => w * f c) r) 0 W.

(** torch.rsqrt(self.bn.running_var + self.bn.eps), sim_bn_fold.py:114,232 *)
Definition rs_run (rsq : Q -> Q) (n : bn) (c : nat) : Q := rsq (nth c (bn_var n) 0 + bn_eps n).

(** the correction in evaluation mode and in freeze(): weight factor and bias,
    sim_bn_fold.py:114-119 and 232-235 *)
Definition fold_factor (rsq : Q -> Q) (n : bn) (c : nat) : Q := gam n c * rs_run rsq n c.
Definition fold_bias (rsq : Q -> Q) (n : bn) (b : option (list Q)) : list Q :=
  map (fun c => bet n c - gam n c * (nth c (bn_mean n) 0 - bia b c) * rs_run rsq n c) (seq 0 (feats n)).

(** the values of channel [c]: x.transpose(0, 1).contiguous().view(channel_size, -1)[c],
    sim_bn_fold.py:186 *)
Definition chan (g : geom) (y : list Q) (c : nat) : list Q :=
  map snd (filter (fun p => Nat.eqb (fst (fst p)) c) (combine g y)).
(** var(1, unbiased=False), sim_bn_fold.py:192 *)
Definition var_b (l : list Q) : Q := mean (map (fun v => (v - mean l) * (v - mean l)) l).

(** freeze, sim_bn_fold.py:229-242: both writes go to the live parameters *)
Definition freeze (rsq : Q -> Q) (s : sfb) : sfb :=
  mkSfb (scale_rows (fold_factor rsq (s_bn s)) (s_w s)) (Some (fold_bias rsq (s_bn s) (s_b s))) (s_bn s) (s_delay s) true.

(** batch_stats, sim_bn_fold.py:163-211: counts the batch, computes mean and variance of the
    output without bias, updates the running statistics (raises when there is one value per
    channel, n / (n - 1)), and freezes when the number of batches passes the delay.  Returns the
    new state and the batch statistics; an exception leaves num_batches_tracked incremented, which
    is not represented since no theorem continues after it. *)
Definition batch_stats (rsq : Q -> Q) (g : geom) (y : list Q) (s : sfb) : res (sfb * (nat -> Q) * (nat -> Q)) :=
  let n := s_bn s in
  let batches := (bn_batches n + 1)%Z in
  let bm c := mean (chan g y c) in
  let bv c := var_b (chan g y c) in
  let cnt := Zq (Z.of_nat (length y)) / Zq (Z.of_nat (feats n)) in
  if Qeq_bool cnt 1 then Raise ZeroDivisionError else
  let m := match bn_mom n with Some m => m | None => 1 / Zq batches end in
  let rm := map (fun c => nth c (bn_mean n) 0 * (1 - m) + m * (bm c + bia (s_b s) c)) (seq 0 (feats n)) in
  let rv := map (fun c => nth c (bn_var n) 0 * (1 - m) + m * (bv c * (cnt / (cnt - 1)))) (seq 0 (feats n)) in
  let s' := mkSfb (s_w s) (s_b s) (mkBn (bn_affine n) (bn_gamma n) (bn_beta n) rm rv (bn_eps n) (bn_mom n) batches) (s_delay s) (s_frozen s) in
  Ok (if Z.ltb (s_delay s) batches then freeze rsq s' else s', bm, bv).

(** forward, sim_bn_fold.py:88-132, for a given mode (self.training) and parameter quantization
    functions [qw], [qb] (the identity when param_quantization_fn is None).  In the training branch
    [w] and [b] are the live parameters: when batch_stats froze the module, [w] is the already
    folded weight. *)
Definition forward (sq rsq : Q -> Q) (qw : list (list Q) -> list (list Q)) (qb : list Q -> list Q)
    (g : geom) (training : bool) (x : list Q) (s : sfb) : res (sfb * list Q) :=
  if s_frozen s then Ok (s, layer g (qw (s_w s)) (match s_b s with Some b => Some (qb b) | None => None end) x)
  else if training then
    do r <- batch_stats rsq g (layer g (s_w s) None x) s;
    let '(s', bm, bv) := r in
    let n := s_bn s' in
    let rb c := rsq (bv c + bn_eps n) in
    let sr c := sq (nth c (bn_var n) 0 + bn_eps n) in
    let wq := qw (scale_rows (fun c => gam n c / sr c) (s_w s')) in
    let bq := qb (map (fun c => bet n c - gam n c * bm c * rb c) (seq 0 (feats n))) in
    Ok (s', map2 (fun p v => v * (sr (fst p) * rb (fst p)) + nth (fst p) bq 0) g (layer g wq None x))
  else
    let n := s_bn s in
    Ok (s, layer g (qw (scale_rows (fold_factor rsq n) (s_w s))) (Some (qb (fold_bias rsq n (s_b s)))) x).

Definition idw (W : list (list Q)) := W.
Definition idb (b : list Q) := b.

(** A history of the module: forwards in either mode, parameter updates by an optimizer (new
    weight, bias, gamma, beta: any values), and explicit calls of freeze(). *)
Inductive sop :=
| STrain (x : list Q)
| SEval (x : list Q)
| SUpdate (W : list (list Q)) (b : option (list Q)) (gamma beta : list Q).

Definition supd (W : list (list Q)) (b : option (list Q)) (gamma beta : list Q) (s : sfb) : sfb :=
  let n := s_bn s in
  mkSfb W b (mkBn (bn_affine n) gamma beta (bn_mean n) (bn_var n) (bn_eps n) (bn_mom n) (bn_batches n)) (s_delay s) (s_frozen s).

(** one operation on the wrapper: new state and output (empty for an update) *)
Definition sstep (sq rsq : Q -> Q) (g : geom) (o : sop) (s : sfb) : res (sfb * list Q) :=
  match o with
  | STrain x => forward sq rsq idw idb g true x s
  | SEval x => forward sq rsq idw idb g false x s
  | SUpdate W b ga be => Ok (supd W b ga be s, [])
  end.

Fixpoint srun (sq rsq : Q -> Q) (g : geom) (ops : list sop) (s : sfb) : res (sfb * list (list Q)) :=
  match ops with
  | [] => Ok (s, [])
  | o :: r => do a <- sstep sq rsq g o s; do b <- srun sq rsq g r (fst a); Ok (fst b, snd a :: snd b)
  end.

(* ------------------------------------------------------------------------- *)
(** * Module types and the constructor's checks *)

Inductive mtype := TLinear | TConv1 | TConv2 | TConv3 | TBn1 | TBn2 | TBn3 | TFrozenBn2 | TOther (k : nat).
Definition mtype_eqb (a b : mtype) : bool :=
  match a, b with
  | TLinear, TLinear | TConv1, TConv1 | TConv2, TConv2 | TConv3, TConv3
  | TBn1, TBn1 | TBn2, TBn2 | TBn3, TBn3 | TFrozenBn2, TFrozenBn2 => true
  | TOther i, TOther j => Nat.eqb i j | _, _ => false end.
Definition is_foldable (t : mtype) : bool := match t with TLinear | TConv1 | TConv2 | TConv3 => true | _ => false end.
Definition is_batchnorm (t : mtype) : bool := match t with TBn1 | TBn2 | TBn3 | TFrozenBn2 => true | _ => false end.

(** verify_module_types, sim_bn_fold.py:73-86 (no subclassing among these types) *)
Definition verify_module_types (p n : mtype) : res unit :=
  match p with
  | TLinear | TConv1 => if mtype_eqb n TBn1 then Ok tt else Raise TypeError
  | TConv2 => if mtype_eqb n TBn2 then Ok tt else Raise TypeError
  | TConv3 => if mtype_eqb n TBn3 then Ok tt else Raise TypeError
  | _ => Raise TypeError
  end.

(** the constructor, sim_bn_fold.py:28-71: type checks, track_running_stats, and the immediate
    freeze of a FrozenBatchNorm2d.  [frozen_has_attr]: torchvision's FrozenBatchNorm2d as used by
    the code has the attributes track_running_stats, affine and eps (when it has not, reading
    track_running_stats raises AttributeError). *)
Definition sfb_init (rsq : Q -> Q) (pt nt : mtype) (tracks frozen_has_attr : bool) (W : list (list Q)) (b : option (list Q)) (n : bn) (delay : Z) : res sfb :=
  do _ <- (match nt with
           | TFrozenBn2 => if mtype_eqb pt TConv2 then Ok tt else Raise TypeError
           | _ => verify_module_types pt nt end);
  if mtype_eqb nt TFrozenBn2 && negb frozen_has_attr then Raise AttributeError
  else if negb tracks then Raise ValueError
  else let s := mkSfb W b n delay false in
       Ok (if mtype_eqb nt TFrozenBn2 then freeze rsq s else s).

(** FREEZE_BN_DELAY_DEFAULT, sim_bn_fold.py:9 *)
Definition freeze_bn_delay_default : Z := 200000.

(** fold_bn, model_transforms.py:116-127: None when the running statistics are not tracked
    (ValueError); with inference=True the module is frozen and its param_module returned. *)
Definition fold_bn (rsq : Q -> Q) (inference : bool) (pt nt : mtype) (tracks frozen_has_attr : bool)
    (W : list (list Q)) (b : option (list Q)) (n : bn) : res (option sfb) :=
  match sfb_init rsq pt nt tracks frozen_has_attr W b n freeze_bn_delay_default with
  | Raise ValueError => Ok None
  | Raise e => Raise e
  | Ok s => Ok (Some (if inference then freeze rsq s else s))
  end.

(* ------------------------------------------------------------------------- *)
(** * fuse_modules, model_transforms.py:30-101 *)

(** an entry of the adjacency map: the node name and the names of its successors *)
Definition adjmap := list (string * list string).

(** the loop state: curr_sequence (names of the modules of the current partial match, in order;
    in_sequence_idx is its length) and the calls of _fuse_sequence made so far, in order *)
Definition fstate := (list string * list (list string))%type.

(** one iteration, model_transforms.py:74-99.  [typ] gives the type of a named module (None: the
    node is not a module); [tseq] is the sequence of type predicates. *)
Definition fuse_step {T : Type} (typ : string -> option T) (tseq : list (T -> bool)) (st : fstate) (e : string * list string) : fstate :=
  let '(cur, out) := st in
  match typ (fst e) with
  | None => ([], out)
  | Some t =>
      if nth (length cur) tseq (fun _ => false) t then
        let cur' := cur ++ [fst e] in
        if Nat.eqb (length cur') (length tseq) then ([], out ++ [cur'])
        else if Nat.ltb 1 (length (snd e)) then ([], out)
        else (cur', out)
      else if nth 0 tseq (fun _ => false) t then ([fst e], out)
      else ([], out)
  end.
(** the sequences passed to _fuse_sequence, in order *)
Definition fused_sequences {T} (typ : string -> option T) (tseq : list (T -> bool)) (adj : adjmap) : list (list string) :=
  snd (fold_left (fuse_step typ tseq) adj ([], [])).

(* ------------------------------------------------------------------------- *)
(** * A model graph and fold_batch_norms on it *)

(** what a node computes in evaluation mode: a layer, a batch-norm, a folded module (not used when
    inference=True), or any other operation *)
Inductive node_op :=
| NLayer (t : mtype) (g : geom) (W : list (list Q)) (b : option (list Q))
| NBn (t : mtype) (tracks : bool) (g : geom) (n : bn)
| NId
| NSim (g : geom) (s : sfb)
| NOther (f : list (list Q) -> list Q).

Record node := mkNode { nd_name : string; nd_op : node_op; nd_module : bool; nd_ins : list string }.
Definition graph := list node.

(** evaluation-mode batch-norm of torch.nn: (y - mean) / sqrt(var + eps) * gamma + beta *)
Definition bn_eval (rsq : Q -> Q) (g : geom) (n : bn) (y : list Q) : list Q :=
  map2 (fun p v => (v - nth (fst p) (bn_mean n) 0) * rs_run rsq n (fst p) * gam n (fst p) + bet n (fst p)) g y.

Definition eval_node (sq rsq : Q -> Q) (o : node_op) (ins : list (list Q)) : list Q :=
  match o with
  | NLayer _ g W b => layer g W b (nth 0 ins [])
  | NBn _ _ g n => bn_eval rsq g n (nth 0 ins [])
  | NId => nth 0 ins []
  | NSim g s => match forward sq rsq idw idb g false (nth 0 ins []) s with Ok r => snd r | Raise _ => [] end
  | NOther f => f ins
  end.
Definition env := list (string * list Q).
Definition eget (e : env) (k : string) : list Q := match dget e k with Some v => v | None => [] end.
(** evaluation in execution order; [e] starts with the model inputs *)
Fixpoint eval_graph (sq rsq : Q -> Q) (gr : graph) (e : env) : env :=
  match gr with
  | [] => e
  | nd :: r => eval_graph sq rsq r (dset e (nd_name nd) (eval_node sq rsq (nd_op nd) (map (eget e) (nd_ins nd))))
  end.

(** SummaryGraph.adjacency_map: for each node in execution order, the nodes that read its output *)
Definition succs (gr : graph) (k : string) : list string :=
  map nd_name (filter (fun nd => existsb (String.eqb k) (nd_ins nd)) gr).
Definition adj_of (gr : graph) : adjmap := map (fun nd => (nd_name nd, succs gr (nd_name nd))) gr.
Definition op_type (o : node_op) : mtype :=
  match o with NLayer t _ _ _ => t | NBn t _ _ _ => t | NId => TOther 0 | NSim _ _ => TOther 1 | NOther _ => TOther 2 end.
Definition find_node (gr : graph) (k : string) : option node := find (fun nd => String.eqb k (nd_name nd)) gr.
(** named_modules.get(node_name) and its type *)
Definition node_type (gr : graph) (k : string) : option mtype :=
  match find_node gr k with Some nd => if nd_module nd then Some (op_type (nd_op nd)) else None | None => None end.

Definition set_op (gr : graph) (k : string) (o : node_op) : graph :=
  map (fun nd => if String.eqb k (nd_name nd) then mkNode (nd_name nd) o (nd_module nd) (nd_ins nd) else nd) gr.

(** _fuse_sequence with fold_bn, model_transforms.py:137-166: the first module is replaced by the
    fused one, the others by identities; nothing changes when fold_bn returns None.  A sequence of
    another shape cannot occur (the types were checked); it is treated as not fused. *)
Definition fuse_pair (rsq : Q -> Q) (inference : bool) (gr : graph) (sq2 : list string) : res graph :=
  match sq2 with
  | [k1; k2] =>
      match find_node gr k1, find_node gr k2 with
      | Some n1, Some n2 =>
          match nd_op n1, nd_op n2 with
          | NLayer t1 g W b, NBn t2 tracks _ n =>
              do r <- fold_bn rsq inference t1 t2 tracks true W b n;
              match r with
              | None => Ok gr
              | Some s => Ok (set_op (set_op gr k1 (if inference then NLayer t1 g (s_w s) (s_b s) else NSim g s)) k2 NId)
              end
          | _, _ => Ok gr
          end
      | _, _ => Ok gr
      end
  | _ => Ok gr
  end.

(** fold_batch_norms, model_transforms.py:104-134 *)
Definition fold_batch_norms (rsq : Q -> Q) (inference : bool) (gr : graph) : res graph :=
  if existsb (fun nd => nd_module nd && is_batchnorm (op_type (nd_op nd))) gr then
    foldM (fuse_pair rsq inference) (fused_sequences (node_type gr) [is_foldable; is_batchnorm] (adj_of gr)) gr
  else Ok gr.
