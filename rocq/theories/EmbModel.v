(** Model of the remaining wrappers of distiller/quantization/range_linear.py: the wrapper of an embedding,
    the floating-point wrapper and the fake-quantization wrapper.

    Exact rational arithmetic, as in RangeModel.  torch.std is any function. *)
From Coq Require Import String List ZArith QArith Qabs Qround Qpower Bool Arith.
From Verif Require Import Base Lists StructModel QuantModel RangeModel PtqModel.
Import ListNotations.

(** range_linear.py:113-167 [_get_saturation_fn], [_get_quant_params_from_tensor] with per_channel False: the
    saturation range of a tensor given as its rows along dimension 0.  (The mean of an empty tensor is NaN in
    PyTorch; here an empty tensor is refused in every mode.)  [std] is nonnegative. *)
Definition tensor_range (std : list Q -> Q) (rows : list (list Q)) (bits : Z) (m : pymode) (clip : clipmode)
    (n_stds : option Q) (half : bool) : res (Q * Q) :=
  let t := concat rows in
  match clip with
  | CNone => do a <- row_min t; do b <- row_max t; Ok (a, b)
  | CAvg => do p <- mapM (fun r => do a <- row_min r; do b <- row_max r; Ok (a, b)) rows;
            Ok (mean (map fst p), mean (map snd p))
  | CNStd => match n_stds with
             | None => Raise UnsatisfiedRequirements
             | Some n => mean_n_stds_min_max std t n
             end
  | CGauss | CLaplace =>
      do mn <- row_min t;
      let h := if is_sym m then false else half in
      do a <- (match clip with
               | CLaplace => get_alpha_laplace t (Z.to_nat bits) h
               | _ => do a <- alpha_gauss h (Z.to_nat bits); Ok (std t * a)
               end);
      Ok (if is_sym m then aciq_symmetric (mean t) a else aciq_asymmetric (mean t) mn a half)
  end.
Definition params_from_tensor (std : list Q -> Q) (rows : list (list Q)) (bits : Z) (m : pymode) (clip : clipmode)
    (n_stds : option Q) (half : bool) : res (Q * Q) :=
  do r <- tensor_range std rows bits m clip n_stds half; params_from_range bits m (fst r) (snd r).

(* ------------------------------------------------------------------------- *)
(** * The wrapper of an embedding, range_linear.py:1320-1448 *)

(** constructor arguments; mode.weights only, and the 'output' entry of the statistics *)
Record ecfg := mkEcfg {
  e_bits : option Z; e_mode : lqmode; e_stats : option stats; e_save : bool;
  e_clip : clipmode; e_nstds : option Q; e_half : bool }.

(** The wrapper.  [b_par] are the values of the buffers w_scale and w_zero_point; [b_md] those of the tensors
    in quant_metadata (and in the quantizer's linear_quant_params), which are the same tensors until the module
    is moved to another device ([b_linked]). *)
Record emb := mkEmb {
  b_weight : list (list Q); b_float : option (list (list Q)); b_par : Q * Q; b_md : Q * Q; b_linked : bool }.

Definition quant_table (bits : Z) (m : lqmode) (par : Q * Q) (W : list (list Q)) : list (list Q) :=
  let r := mode_range bits (PM m) in
  map (map (fun x => linear_quantize_clamp x (fst par) (snd par) (Zq (fst r)) (Zq (snd r)))) W.

(** range_linear.py:1321-1359 [__init__]; num_bits None makes get_quantized_range fail (TypeError) *)
Definition emb_init (std : list Q -> Q) (cfg : ecfg) (W : list (list Q)) : res emb :=
  match e_bits cfg with
  | None => Raise TypeError
  | Some bits =>
      do p <- (match e_stats cfg with
               | None => params_from_tensor std W bits (PM (e_mode cfg)) (e_clip cfg) (e_nstds cfg) (e_half cfg)
               | Some st => params_from_stats st bits (PM (e_mode cfg)) (e_clip cfg) (e_nstds cfg) (e_half cfg) None
               end);
      Ok (mkEmb (quant_table bits (e_mode cfg) p W) (if e_save cfg then Some W else None) p p true)
  end.

(** range_linear.py:1426-1430 [forward] for a list of indices: the rows and the values of the metadata's scale and
    zero point.  (No max_norm: nn.Embedding would renormalize the stored rows.) *)
Definition emb_forward (idx : list nat) (s : emb) : res (list (list Q) * (Q * Q)) :=
  do rows <- mapM (fun i => match nth_error (b_weight s) i with Some r => Ok r | None => Raise IndexError end) idx;
  Ok (map (map (fun q => linear_dequantize q (fst (b_par s)) (snd (b_par s)))) rows, b_md s).

(** names of parameters: w_scale, w_zero_point, weight_clipping, others *)
Inductive ename := EScale | EZp | EOther.
Definition fill1 (n : ename) (v : Q) (p : Q * Q) : Q * Q :=
  match n with EScale => (v, snd p) | EZp => (fst p, v) | EOther => p end.

(** Tensor.fill_ on a buffer of the module *)
Definition emb_fill (n : ename) (v : Q) (s : emb) : emb :=
  let p := fill1 n v (b_par s) in
  mkEmb (b_weight s) (b_float s) p (if b_linked s then p else b_md s) (b_linked s).

Definition get_bits (cfg : ecfg) : Z := match e_bits cfg with Some b => b | None => 0%Z end.

(** range_linear.py:1366-1381 [set_linear_quant_param] for w_scale, w_zero_point and unknown names *)
Definition emb_set (cfg : ecfg) (n : ename) (v : Q) (s : emb) : res emb :=
  match n with
  | EOther => Raise KeyError
  | _ =>
      match b_float s with
      | None => Raise UnsatisfiedRequirements
      | Some W =>
          let s := emb_fill n v s in
          Ok (mkEmb (quant_table (get_bits cfg) (e_mode cfg) (b_par s) W) (b_float s) (b_par s) (b_md s) (b_linked s))
      end
  end.

(** range_linear.py:1399-1418, the weight_clipping property; the clipping values are Python floats.  In the
    symmetric modes the scale is that of the full range, and the upper value alone counts. *)
Definition emb_clip_params (bits : Z) (m : lqmode) (v : clipval) : res (Q * Q) :=
  do r <- check_clipping_val v (PM m) false;
  do p <- (if is_sym (PM m) then sym_params bits [snd r] false
           else asym_params bits [fst r] [snd r] true (mode_is (PM m) ASS));
  first_param p.
Definition emb_get_clipping (cfg : ecfg) (s : emb) : Q * Q :=
  get_clipping_values (fst (b_par s)) (snd (b_par s)) (get_bits cfg) (PM (e_mode cfg)).
Definition emb_set_clipping (cfg : ecfg) (v : clipval) (s : emb) : res emb :=
  do p <- emb_clip_params (get_bits cfg) (e_mode cfg) v;
  do s <- emb_set cfg EScale (fst p) s;
  emb_set cfg EZp (snd p) s.

(** range_linear.py:1864-1876 [PostTrainLinearQuantizer.set_linear_quant_param] for a parameter of the embedding:
    fills the tensor collected by prepare_model; force_readjust concerns other wrappers only *)
Definition emb_quantizer_set (n : ename) (v : Q) (s : emb) : res emb :=
  match n with
  | EOther => Raise KeyError
  | _ => if b_linked s then Ok (emb_fill n v s)
         else Ok (mkEmb (b_weight s) (b_float s) (b_par s) (fill1 n v (b_md s)) false)
  end.

(** Module.to(another device): the buffers become copies *)
Definition emb_move (s : emb) : emb := mkEmb (b_weight s) (b_float s) (b_par s) (b_md s) false.

Inductive emb_op :=
| EoLookup (idx : list nat)
| EoSet (n : ename) (v : Q)          (* wrapper.set_linear_quant_param *)
| EoClip (v : clipval)               (* wrapper.weight_clipping = v, quantizer.set_clipping, set_linear_quant_param('weight_clipping') *)
| EoQuantizerSet (n : ename) (v : Q) (* quantizer.set_linear_quant_param *)
| EoMove.
Definition emb_step (cfg : ecfg) (s : emb) (o : emb_op) : res emb :=
  match o with
  | EoLookup idx => do r <- emb_forward idx s; Ok s
  | EoSet n v => emb_set cfg n v s
  | EoClip v => emb_set_clipping cfg v s
  | EoQuantizerSet n v => emb_quantizer_set n v s
  | EoMove => Ok (emb_move s)
  end.
Definition emb_run (cfg : ecfg) (ops : list emb_op) (s : emb) : res emb := foldM (emb_step cfg) ops s.

(** range_linear.py:1432-1448 [to_pytorch_quant]: the float table, and the scale and zero point of the nnq.Quantize that
    follows.  The float copy is a buffer of the wrapped module, [self.float_weight] does not exist. *)
Definition emb_to_pytorch (cfg : ecfg) (reduce : bool) (s : emb) : res (list (list Q) * (Q * Z)) :=
  if e_save cfg then Raise AttributeError else
  do p <- qparams_to_pytorch [b_par s] (get_bits cfg) (e_mode cfg) QUInt8 reduce;
  do p <- one_param p;
  Ok (map (map (fun q => linear_dequantize q (fst (b_par s)) (snd (b_par s)))) (b_weight s), p).

(* ------------------------------------------------------------------------- *)
(** * The floating-point wrapper, range_linear.py:1280-1317, and utils.py:746-754 *)
Inductive dtype := F16 | F32 | F64 | I64 (* any other type *).
Definition dtype_eqb (a b : dtype) : bool :=
  match a, b with F16, F16 | F32, F32 | F64, F64 | I64, I64 => true | _, _ => false end.

(** values passed to and returned by modules; [VNamed]: a tuple with field names (at least two), [VOther]: anything
    else, dictionaries included *)
Inductive pyval := VTen (d : dtype) (t : list Q) | VTup (l : list pyval) | VList (l : list pyval) | VNamed (l : list pyval) | VOther (n : nat).

Section Cast.
(** [cast d x]: the value of x in the type d *)
Variable cast : dtype -> Q -> Q.

(** Tensor.to(dtype): the tensor itself when it has the type *)
Definition ten_to (d : dtype) (d0 : dtype) (t : list Q) : pyval :=
  if dtype_eqb d0 d then VTen d0 t else VTen d (map (cast d) t).

(** utils.py:746-754 [convert_tensors_recursively_to]; [type(val)(generator)] of a named tuple lacks arguments *)
Fixpoint convert_to (d : dtype) (v : pyval) : res pyval :=
  let fix go l := match l with [] => Ok [] | v :: l => do w <- convert_to d v; do ws <- go l; Ok (w :: ws) end in
  match v with
  | VTen d0 t => Ok (ten_to d d0 t)
  | VTup l => do l <- go l; Ok (VTup l)
  | VList l => do l <- go l; Ok (VList l)
  | VNamed l => do l <- go l; Raise TypeError
  | VOther n => Ok (VOther n)
  end.

(** range_linear.py:1291-1297 [FPWrapper.__init__]: the table of precisions, indexed by str(precision) *)
Definition precision (s : string) : res dtype :=
  if String.eqb s "16" then Ok F16 else if String.eqb s "32" then Ok F32 else if String.eqb s "64" then Ok F64 else Raise KeyError.

(** range_linear.py:1299-1307 [forward]; [f d] is the wrapped module with its parameters of type d *)
Definition fp_forward (f : dtype -> list pyval -> res pyval) (d : dtype) (convert_input return_fp32 : bool) (ins : list pyval) : res pyval :=
  do ins <- (if convert_input then do v <- convert_to d (VTup ins); match v with VTup l => Ok l | _ => Raise TypeError end else Ok ins);
  do out <- f d ins;
  if return_fp32 then convert_to F32 out else Ok out.
End Cast.

(* ------------------------------------------------------------------------- *)
(** * The fake-quantization wrapper, range_linear.py:1451-1503, with the forward of the base class, 550-589 *)

(** The wrapped module: its function on the input tensors; [Some i]: its result is a view of input i
    (the same elements in the same order), sharing its memory. *)
Record wmod := mkWmod { wm_fun : list (list Q) -> res (list Q); wm_view : option nat }.

(** configuration: the output settings (q = None: activations not quantized), the statistics of the output, whether
    the inputs are quantized, and their overrides and statistics *)
Record fcfg := mkFcfg {
  f_bits : option Z; f_mode : lqmode; f_clip : clipmode; f_nstds : option Q; f_half : bool; f_approx : option Z;
  f_stats : option stats; f_qin : bool; f_ovr : nat -> option override; f_auto : bool; f_instats : nat -> option stats }.

Definition f_qset (cfg : fcfg) (bits : Z) : qset := mkQset bits (PM (f_mode cfg)) (f_clip cfg) (f_nstds cfg) (f_half cfg).

(** range_linear.py:1475-1486 [_prepare_input]: the tensor of the caller afterwards, and what the module receives; the
    flag: is it the caller's tensor.  With preset statistics an input without statistics is a KeyError. *)
Definition fake_prepare (cfg : fcfg) (bits : Z) (idx : nat) (t : tobj) : res (tobj * (list Q * bool)) :=
  if negb (f_qin cfg) then Ok (t, (t_data t, true)) else
  let prev := match t_md t with Some _ => true | None => false end in
  do preset <- (match f_stats cfg, prev with
                | None, _ => Ok None
                | Some _, true => Ok (f_instats cfg idx)
                | Some _, false => match f_instats cfg idx with Some st => Ok (Some st) | None => Raise KeyError end
                end);
  do md <- input_metadata (f_qset cfg bits) (f_ovr cfg idx) (f_auto cfg) preset (f_approx cfg) t;
  let t' := mkTobj (t_data t) (Some md) in
  if prev then Ok (t', (t_data t, true))
  else Ok (t', (map (fun v => linear_dequantize (linear_quantize_clamp v (q_scale md) (q_zp md) (Zq (q_lo md)) (Zq (q_hi md))) (q_scale md) (q_zp md)) (t_data t), false)).

Fixpoint prepare_all (cfg : fcfg) (bits : Z) (idx : nat) (l : list tobj) : res (list (tobj * (list Q * bool))) :=
  match l with
  | [] => Ok []
  | t :: l => do x <- fake_prepare cfg bits idx t; do xs <- prepare_all cfg bits (S idx) l; Ok (x :: xs)
  end.

(** range_linear.py:1493-1503: output parameters: preset, or from the accumulator (a tensor; its first dimension, used by
    the averaged clipping, is [rows]) *)
Definition fake_out_params (std : list Q -> Q) (cfg : fcfg) (bits : Z) (rows : list Q -> list (list Q)) (acc : list Q) : res (Q * Q) :=
  match f_stats cfg with
  | Some st => params_from_stats st bits (PM (f_mode cfg)) (f_clip cfg) (f_nstds cfg) (f_half cfg) (f_approx cfg)
  | None => do p <- params_from_tensor std (rows acc) bits (PM (f_mode cfg)) (f_clip cfg) (f_nstds cfg) (f_half cfg);
            Ok (approx_opt (fst p) (f_approx cfg), snd p)
  end.

Definition set_data (v : list Q) (t : tobj) : tobj := mkTobj v (t_md t).
Fixpoint upd_nth {A} (i : nat) (f : A -> A) (l : list A) : list A :=
  match l, i with
  | [], _ => []
  | x :: l, O => f x :: l
  | x :: l, S i => x :: upd_nth i f l
  end.

(** range_linear.py:550-589 [forward] of the fake-quantization wrapper, in evaluation mode: the output with its
    metadata (None: not quantized), and the caller's input tensors afterwards.  The output is quantized and
    de-quantized in the memory of the module's result, unless the fused ReLU made a copy. *)
Definition fake_forward (std : list Q -> Q) (rows : list Q -> list (list Q)) (m : wmod) (cfg : fcfg) (ins : list tobj)
    : res (list Q * option qmd * list tobj) :=
  match f_bits cfg with
  | None =>
      do o <- wm_fun m (map t_data ins);
      Ok ((if f_half cfg then map relu o else o), None, ins)
  | Some bits =>
      do p <- prepare_all cfg bits 0 ins;
      do acc <- wm_fun m (map (fun x => fst (snd x)) p);
      let acc' := if f_half cfg then map relu acc else acc in
      do out <- fake_out_params std cfg bits rows acc';
      let r := mode_range bits (PM (f_mode cfg)) in
      let y := map (fun v => linear_dequantize (linear_quantize_clamp v (fst out) (snd out) (Zq (fst r)) (Zq (snd r))) (fst out) (snd out)) acc' in
      let ts := map fst p in
      let ts := match wm_view m with
                | Some i => if negb (f_half cfg) && match nth_error p i with Some x => snd (snd x) | None => false end
                            then upd_nth i (set_data y) ts else ts
                | None => ts
                end in
      Ok (y, Some (mkQmd (fst out) (snd out) (fst r) (snd r)), ts)
  end.
