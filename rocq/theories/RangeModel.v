(** Model of distiller/quantization/range_linear.py: quantization parameters from tensors and from
    calibration statistics, the post-training wrapper of a layer with weights, the other
    arithmetic wrappers, and training-time fake quantization.

    A convolution or linear layer is a list of output positions; each has an output channel and the
    list of the input elements its window covers, [None] for a zero-padded one (so any kernel
    size, stride, padding, dilation and grouping is covered).  Exact rational arithmetic; devices,
    dtypes and logging are not modelled. *)
From Coq Require Import String List ZArith QArith Qabs Qround Qpower Bool Arith.
From Verif Require Import Base Lists StructModel QuantModel.
Import ListNotations.

(** q_utils.py:21-34 [LinearQuantMode]; range_linear.py:60-68 [ModuleQuantMode]: the code passes
    either kind to the functions below, and the comparisons with a LinearQuantMode are all false
    for the pair. *)
Inductive lqmode := SYM | SYMR | ASU | ASS.
Inductive pymode := PM (m : lqmode) | PPair (acts wts : lqmode).
Definition lqmode_eqb (a b : lqmode) : bool :=
  match a, b with SYM, SYM | SYMR, SYMR | ASU, ASU | ASS, ASS => true | _, _ => false end.
Definition mode_is (m : pymode) (x : lqmode) : bool :=
  match m with PM y => lqmode_eqb y x | PPair _ _ => false end.
Definition is_sym (m : pymode) : bool := mode_is m SYM || mode_is m SYMR.

(** range_linear.py:71-81 [ClipMode] *)
Inductive clipmode := CNone | CAvg | CNStd | CGauss | CLaplace.

(** range_linear.py:433-435, 462-465 and others: the quantized range of a mode *)
Definition mode_range (bits : Z) (m : pymode) : Z * Z :=
  get_quantized_range bits (negb (mode_is m ASU)) (mode_is m SYMR).

(** the entries of a calibration statistics record *)
Record stats := mkStats { st_min : Q; st_max : Q; st_avg_min : Q; st_avg_max : Q; st_mean : Q; st_std : Q; st_b : Q }.

(** q_utils.py:220-242: alpha from a statistics record *)
Definition alpha_of (clip : clipmode) (bits : Z) (half : bool) (std b : Q) : res Q :=
  match clip with
  | CLaplace => do a <- alpha_laplace half (Z.to_nat bits); Ok (b * a)
  | _ => do a <- alpha_gauss half (Z.to_nat bits); Ok (std * a)
  end.

Definition approx_opt (scale : Q) (approx : option Z) : Q :=
  match approx with None => scale | Some k => approx_scale scale k false end.

Definition first_param (p : list (Q * Q)) : res (Q * Q) :=
  match p with x :: _ => Ok x | [] => Raise IndexError end.

(** range_linear.py:170-203 [_get_quant_params_from_stats_dict]; the clipping range *)
Definition stats_range (s : stats) (bits : Z) (m : pymode) (clip : clipmode) (n_stds : option Q) (half : bool) : res (Q * Q) :=
  match clip with
  | CNone => Ok (st_min s, st_max s)
  | CAvg => Ok (st_avg_min s, st_avg_max s)
  | CNStd => match n_stds with
             | None => Raise ValueError
             | Some n => if Qle_bool n 0 then Raise ValueError
                         else Ok (qmax (st_min s) (st_mean s - n * st_std s), qmin (st_max s) (st_mean s + n * st_std s))
             end
  | CGauss | CLaplace =>
      if is_sym m then do a <- alpha_of clip bits false (st_std s) (st_b s); Ok (aciq_symmetric (st_mean s) a)
      else do a <- alpha_of clip bits half (st_std s) (st_b s); Ok (aciq_asymmetric (st_mean s) (st_avg_min s) a half)
  end.
Definition params_from_range (bits : Z) (m : pymode) (mn mx : Q) : res (Q * Q) :=
  do p <- (if is_sym m then sym_params bits [qmax (Qabs mn) (Qabs mx)] (mode_is m SYMR)
           else asym_params bits [mn] [mx] true (mode_is m ASS));
  first_param p.
Definition params_from_stats (s : stats) (bits : Z) (m : pymode) (clip : clipmode) (n_stds : option Q) (half : bool)
    (approx : option Z) : res (Q * Q) :=
  do r <- stats_range s bits m clip n_stds half;
  do p <- params_from_range bits m (fst r) (snd r);
  Ok (approx_opt (fst p) approx, snd p).

(** range_linear.py:130-167 [_get_quant_params_from_tensor] with clip = NONE, the only clipping used
    for weights unless also_clip_weights (the averaged, N_STD and ACIQ statistics are modelled
    in QuantModel).  [rows] are the output channels of the tensor; the result has one entry, or
    one per channel. *)
Definition params_of_row (bits : Z) (m : pymode) (r : list Q) : res (Q * Q) :=
  do mn <- row_min r; do mx <- row_max r; params_from_range bits m mn mx.
Definition params_from_rows (rows : list (list Q)) (bits : Z) (m : pymode) (per_channel : bool) : res (list (Q * Q)) :=
  if per_channel then mapM (params_of_row bits m) rows
  else do p <- params_of_row bits m (concat rows); Ok [p].

(** the entry of channel [c]: a one-element parameter is broadcast *)
Definition bc {A} (d : A) (l : list A) (c : nat) : A := match l with [x] => x | _ => nth c l d end.
Definition scale_of (p : list (Q * Q)) (c : nat) : Q := fst (bc (1, 0) p c).
Definition zp_of (p : list (Q * Q)) (c : nat) : Q := snd (bc (1, 0) p c).

(** map with the channel index *)
Fixpoint mapi {A B} (f : nat -> A -> B) (c : nat) (l : list A) : list B :=
  match l with [] => [] | x :: r => f c x :: mapi f (S c) r end.

(* ------------------------------------------------------------------------- *)
(** * The wrapper of a layer with weights, range_linear.py:740-1011 *)

(** an output position: its channel and the input elements of its window *)
Definition geom := list (nat * list (option nat)).
Definition gather (x : list Q) (win : list (option nat)) : list Q :=
  map (fun o => match o with Some i => nth i x 0 | None => 0 end) win.
Definition dot (a b : list Q) : Q := qsum (map2 Qmult a b).
(** the wrapped convolution / linear module: weight rows per output channel *)
Definition layer_at (W : list (list Q)) (b : option (list Q)) (x : list Q) (p : nat * list (option nat)) : Q :=
  dot (nth (fst p) W []) (gather x (snd p)) + match b with Some b => nth (fst p) b 0 | None => 0 end.
Definition layer (g : geom) (W : list (list Q)) (b : option (list Q)) (x : list Q) : list Q := map (layer_at W b x) g.

(** constructor arguments *)
Record pcfg := mkPcfg {
  p_acts : option Z;          (* num_bits_acts *)
  p_wts : Z;                  (* num_bits_params *)
  p_accum : Z;                (* num_bits_accum *)
  p_mode_a : lqmode; p_mode_w : lqmode;
  p_per_channel : bool;
  p_stats : option stats;     (* output statistics; None: dynamic *)
  p_clip : clipmode; p_n_stds : option Q; p_half : bool;
  p_approx : option Z;
  p_save_fp : bool }.

(** the wrapper's parameters and buffers *)
Record pw := mkPw {
  w_weight : list (list Q);          (* wrapped_module.weight *)
  w_float : list (list Q);           (* wrapped_module.float_weight (only when save_fp_weights) *)
  w_par : list (Q * Q);              (* w_scale, w_zero_point *)
  w_bias : option (list Q);          (* wrapped_module.bias *)
  w_fp_bias : option (list Q);       (* fp_bias (preset stats) *)
  w_base_b : option (list Q);        (* base_b_q (dynamic) *)
  w_b_par : Q * Q;                   (* b_scale, b_zero_point *)
  w_out : Q * Q;                     (* output_scale, output_zero_point *)
  w_accum_scale : list Q;
  w_shifted : bool;                  (* is_simulated_quant_weight_shifted *)
  w_forwards : nat;
  w_readjust : bool }.

Definition quant_rows (bits : Z) (m : lqmode) (par : list (Q * Q)) (W : list (list Q)) : list (list Q) :=
  let r := mode_range bits (PM m) in
  mapi (fun c row => map (fun x => linear_quantize_clamp x (scale_of par c) (zp_of par c) (Zq (fst r)) (Zq (snd r))) row) 0 W.
Definition dequant_rows (par : list (Q * Q)) (W : list (list Q)) : list (list Q) :=
  mapi (fun c row => map (fun x => linear_dequantize x (scale_of par c) (zp_of par c)) row) 0 W.
(** weight.data += w_zero_point, weight.data -= w_zero_point *)
Definition shift_rows (sgn : Q) (par : list (Q * Q)) (W : list (list Q)) : list (list Q) :=
  mapi (fun c row => map (fun x => x + sgn * zp_of par c) row) 0 W.

Definition accum_range (cfg : pcfg) : Z * Z := get_quantized_range (p_accum cfg) true false.

(** range_linear.py:400-478 and 740-837: the constructor, given the wrapped module's weight and bias.
    [dims] is weight.dim(). *)
Definition pw_init (cfg : pcfg) (dims : nat) (W : list (list Q)) (b : option (list Q)) : res pw :=
  do out <- (match p_acts cfg, p_stats cfg with
             | Some bits, Some s => params_from_stats s bits (PM (p_mode_a cfg)) (p_clip cfg) (p_n_stds cfg) (p_half cfg) (p_approx cfg)
             | _, _ => Ok (1, 0)
             end);
  let preset := match p_acts cfg, p_stats cfg with Some _, Some _ => true | _, _ => false end in
  let fake := match p_acts cfg with None => true | Some _ => false end in
  if p_per_channel cfg && negb (Nat.eqb dims 2 || Nat.eqb dims 4) then Raise UnsatisfiedRequirements else
  do par <- params_from_rows W (p_wts cfg) (PM (p_mode_w cfg)) (p_per_channel cfg);
  let Wq := quant_rows (p_wts cfg) (p_mode_w cfg) par W in
  do bp <- (match b with
            | Some bv => if preset then Ok (1, 0)
                         else params_of_row (p_accum cfg) (PM SYM) bv
            | None => Ok (1, 0) end);
  let ar := accum_range cfg in
  let base := match b with
              | Some bv => if preset then None
                           else Some (map (fun x => linear_quantize_clamp x (fst bp) (snd bp) (Zq (fst ar)) (Zq (snd ar))) bv)
              | None => None end in
  if fake then
    Ok (mkPw (dequant_rows par Wq) W par
          (match base with Some q => Some (map (fun x => linear_dequantize x (fst bp) (snd bp)) q) | None => None end)
          None base bp out [] false 0 false)
  else
    Ok (mkPw Wq W par b (if preset then b else None) base bp out (if preset then map fst par else [1]) false 0 false).

(** a tensor's quantization metadata: scale, zero point, quantized range *)
Record qmd := mkQmd { q_scale : Q; q_zp : Q; q_lo : Z; q_hi : Z }.

(** get_accum_scale, range_linear.py:917-923.  [if self.scale_approx_mult_bits]: 0 counts as unset *)
Definition get_accum_scale (cfg : pcfg) (sx : Q) (par : list (Q * Q)) : list Q :=
  map (fun p => let s := sx * fst p in
                match p_approx cfg with Some k => if Z.eqb k 0 then s else approx_scale s k false | None => s end) par.

Definition quant_bias (ar : Z * Z) (scale : list Q) (v : list Q) : list Q :=
  mapi (fun c x => linear_quantize_clamp x (bc 1 scale c) 0 (Zq (fst ar)) (Zq (snd ar))) 0 v.

(** range_linear.py:907-959 [quantized_forward]: the new state and the accumulator.  [xq] is the
    quantized input (an integer tensor). *)
Definition preset_of (cfg : pcfg) : bool := match p_acts cfg, p_stats cfg with Some _, Some _ => true | _, _ => false end.
Definition adjust (cfg : pcfg) (sx : Q) (s : pw) : pw :=
  let ar := accum_range cfg in
  if preset_of cfg then
    if Nat.eqb (w_forwards s) 0 || w_readjust s then
      let acc := get_accum_scale cfg sx (w_par s) in
      let b := match w_bias s, w_fp_bias s with Some _, Some fb => Some (quant_bias ar acc fb) | bb, _ => bb end in
      mkPw (w_weight s) (w_float s) (w_par s) b (w_fp_bias s) (w_base_b s) (w_b_par s) (w_out s) acc (w_shifted s) (w_forwards s) false
    else s
  else
    let acc := get_accum_scale cfg sx (w_par s) in
    let b := match w_bias s, w_base_b s with
             | Some _, Some bq =>
                 Some (quant_bias ar (map (fun a => approx_opt (a / fst (w_b_par s)) (p_approx cfg)) acc)
                                  (map (fun x => x + snd (w_b_par s)) bq))
             | bb, _ => bb end in
    mkPw (w_weight s) (w_float s) (w_par s) b (w_fp_bias s) (w_base_b s) (w_b_par s) (w_out s) acc (w_shifted s) (w_forwards s) (w_readjust s).
Definition shift_once (cfg : pcfg) (s : pw) : pw :=
  if negb (is_sym (PM (p_mode_w cfg))) && negb (w_shifted s) then
    mkPw (shift_rows 1 (w_par s) (w_weight s)) (w_float s) (w_par s) (w_bias s) (w_fp_bias s) (w_base_b s) (w_b_par s) (w_out s)
         (w_accum_scale s) true (w_forwards s) (w_readjust s)
  else s.
Definition quantized_forward (cfg : pcfg) (g : geom) (md : qmd) (xq : list Q) (s : pw) : pw * list Q :=
  let s := shift_once cfg (adjust cfg (q_scale md) s) in
  let ar := accum_range cfg in
  let acc := layer g (w_weight s) (w_bias s) (map (fun x => x + q_zp md) xq) in
  (s, map (fun a => clamp a (Zq (fst ar)) (Zq (snd ar))) acc).

Definition relu (x : Q) : Q := qmax x 0.

(** range_linear.py:550-589 [forward] in eval mode, given the input's quantization metadata (see
    [input_metadata] below).  [chan] gives the channel of each output position. *)
Definition pw_forward (cfg : pcfg) (g : geom) (md : qmd) (x : list Q) (s : pw) : res (pw * list Q) :=
  match p_acts cfg with
  | None => let out := layer g (w_weight s) (w_bias s) x in
            Ok (s, if p_half cfg then map relu out else out)
  | Some bits =>
      let xq := map (fun v => linear_quantize_clamp v (q_scale md) (q_zp md) (Zq (q_lo md)) (Zq (q_hi md))) x in
      let '(s, acc) := quantized_forward cfg g md xq s in
      let acc := if p_half cfg then map relu acc else acc in
      do out <- (if preset_of cfg then Ok (w_out s)
                 else do p <- params_of_row bits (PM (p_mode_a cfg)) (map2 (fun p a => a / bc 1 (w_accum_scale s) (fst p)) g acc);
                      Ok (approx_opt (fst p) (p_approx cfg), snd p));
      let r := mode_range bits (PM (p_mode_a cfg)) in
      let requant := fun c => approx_opt (fst out / bc 1 (w_accum_scale s) c) (p_approx cfg) in
      let outq := map2 (fun p a => linear_quantize_clamp a (requant (fst p)) (snd out) (Zq (fst r)) (Zq (snd r))) g acc in
      Ok (mkPw (w_weight s) (w_float s) (w_par s) (w_bias s) (w_fp_bias s) (w_base_b s) (w_b_par s) (w_out s)
               (w_accum_scale s) (w_shifted s) (S (w_forwards s)) (w_readjust s),
          map (fun q => linear_dequantize q (fst out) (snd out)) outq)
  end.

(** range_linear.py:900-905 [state_dict]: the state afterwards; its weight is what is saved *)
Definition pw_state_dict (cfg : pcfg) (s : pw) : pw :=
  match p_acts cfg with
  | None => s
  | Some _ =>
      if w_shifted s then
        mkPw (shift_rows (-1) (w_par s) (w_weight s)) (w_float s) (w_par s) (w_bias s) (w_fp_bias s) (w_base_b s) (w_b_par s)
             (w_out s) (w_accum_scale s) false (w_forwards s) (w_readjust s)
      else s
  end.

Inductive qparam := WScale | WZp | OutScale | OutZp | OtherParam.
Definition set_scale (v : Q) (p : Q * Q) : Q * Q := (v, snd p).
Definition set_zp (v : Q) (p : Q * Q) : Q * Q := (fst p, v).

(** range_linear.py:505-532 (base class): fill the buffer, ask for readjustment.  Evaluating
    [named_clipping] fails on per-channel weight parameters unless there are exactly 2 channels:
    [sat_min, sat_max = linear_dequantize(t, scale, zp)] unpacks the channel dimension. *)
Definition clipping_readable (cfg : pcfg) (s : pw) : bool := negb (p_per_channel cfg) || Nat.eqb (length (w_par s)) 2.
Definition fill_param (cfg : pcfg) (n : qparam) (v : Q) (s : pw) : res pw :=
  if negb (clipping_readable cfg s) then Raise ValueError else
  let par := match n with WScale => map (set_scale v) (w_par s) | WZp => map (set_zp v) (w_par s) | _ => w_par s end in
  let out := match n with OutScale => set_scale v (w_out s) | OutZp => set_zp v (w_out s) | _ => w_out s end in
  match n with
  | OtherParam => Raise ValueError
  | OutScale | OutZp => if negb (preset_of cfg) then Raise ValueError else
      Ok (mkPw (w_weight s) (w_float s) par (w_bias s) (w_fp_bias s) (w_base_b s) (w_b_par s) out (w_accum_scale s) (w_shifted s) (w_forwards s) true)
  | _ =>
      Ok (mkPw (w_weight s) (w_float s) par (w_bias s) (w_fp_bias s) (w_base_b s) (w_b_par s) out (w_accum_scale s) (w_shifted s) (w_forwards s) true)
  end.
(** range_linear.py:844-860 (wrapper method) *)
Definition pw_set_param (cfg : pcfg) (n : qparam) (v : Q) (s : pw) : res pw :=
  match n with
  | WScale | WZp =>
      if negb (p_save_fp cfg) then Raise UnsatisfiedRequirements else
      do s <- fill_param cfg n v s;
      let Wq := quant_rows (p_wts cfg) (p_mode_w cfg) (w_par s) (w_float s) in
      let Wn := match p_acts cfg with None => dequant_rows (w_par s) Wq | Some _ => Wq end in
      Ok (mkPw Wn (w_float s) (w_par s) (w_bias s) (w_fp_bias s) (w_base_b s) (w_b_par s) (w_out s) (w_accum_scale s)
               (w_shifted s) (w_forwards s) (w_readjust s))
  | _ => fill_param cfg n v s
  end.
(** range_linear.py:1864-1876 [PostTrainLinearQuantizer.set_linear_quant_param]: fills the buffer
    only, and asks every wrapper for readjustment (for a name in linear_quant_params) *)
Definition quantizer_set_param (cfg : pcfg) (n : qparam) (v : Q) (s : pw) : res pw :=
  match n with
  | (WScale | WZp) => if p_save_fp cfg then fill_param cfg n v s else Raise KeyError
  | _ => fill_param cfg n v s
  end.

Inductive pw_op :=
| OpForward (md : qmd) (x : list Q)
| OpStateDict
| OpSet (n : qparam) (v : Q)
| OpQuantizerSet (n : qparam) (v : Q).
Definition pw_step (cfg : pcfg) (g : geom) (s : pw) (o : pw_op) : res pw :=
  match o with
  | OpForward md x => do r <- pw_forward cfg g md x s; Ok (fst r)
  | OpStateDict => Ok (pw_state_dict cfg s)
  | OpSet n v => pw_set_param cfg n v s
  | OpQuantizerSet n v => quantizer_set_param cfg n v s
  end.
Definition pw_run (cfg : pcfg) (g : geom) (ops : list pw_op) (s : pw) : res pw := foldM (pw_step cfg g) ops s.

(* ------------------------------------------------------------------------- *)
(** * Input quantization settings, range_linear.py:417-436, 597-635 *)
Record qset := mkQset { s_bits : Z; s_mode : pymode; s_clip : clipmode; s_nstds : option Q; s_halfr : bool }.

(** input_overrides entry: from_output, or a dict of settings whose mode goes through
    verify_quant_mode (which always returns a ModuleQuantMode) *)
Inductive override := FromOutput | Custom (bits : option Z) (mode : option lqmode) (clip : option clipmode) (n_stds : option Q).
Definition override_settings (out : qset) (o : override) : qset :=
  match o with
  | FromOutput => mkQset (s_bits out) (s_mode out) (s_clip out) (s_nstds out) false
  | Custom b m c n =>
      let md := match m with Some x => x | None => match s_mode out with PM x => x | PPair a _ => a end end in
      mkQset (match b with Some x => x | None => s_bits out end) (PPair md md)
             (match c with Some x => x | None => s_clip out end)
             (match n with Some x => Some x | None => s_nstds out end) false
  end.

(** range_linear.py:453-468: metadata of an input computed from its statistics at construction *)
Definition preset_input_md (out : qset) (o : option override) (approx : option Z) (st : stats) : res qmd :=
  let s := match o with Some o => override_settings out o | None => out end in
  do p <- params_from_stats st (s_bits s) (s_mode s) (s_clip s) (s_nstds s) (s_halfr s) approx;
  let r := mode_range (s_bits s) (s_mode s) in
  Ok (mkQmd (fst p) (snd p) (fst r) (snd r)).
(** range_linear.py:597-635: computed from the tensor (dynamic), clip = NONE *)
Definition dynamic_input_md (out : qset) (o : option override) (approx : option Z) (x : list Q) : res qmd :=
  let s := match o with Some o => override_settings out o | None => out end in
  do p <- params_of_row (s_bits s) (s_mode s) x;
  let r := mode_range (s_bits s) (s_mode s) in
  Ok (mkQmd (approx_opt (fst p) approx) (snd p) (fst r) (snd r)).

(** A tensor object: its data and the quant_metadata attribute, which [_prepare_input] sets on
    the caller's tensor (range_linear.py:603-607). *)
Record tobj := mkTobj { t_data : list Q; t_md : option qmd }.
(** range_linear.py:597-635 [_get_input_quant_metadata] *)
Definition input_metadata (out : qset) (o : option override) (auto_fallback : bool) (preset : option stats) (approx : option Z)
    (t : tobj) : res qmd :=
  match t_md t with
  | Some md => match o with Some _ => Raise RuntimeError | None => Ok md end
  | None =>
      match o, auto_fallback with
      | None, false => Raise RuntimeError
      | _, _ => match preset with
                | Some st => preset_input_md out o approx st
                | None => dynamic_input_md out o approx (t_data t)
                end
      end
  end.
(** [_prepare_input]: the caller's tensor afterwards and the quantized copy *)
Definition prepare_input (out : qset) (o : option override) (auto_fallback : bool) (preset : option stats) (approx : option Z)
    (t : tobj) : res (tobj * list Q * qmd) :=
  do md <- input_metadata out o auto_fallback preset approx t;
  Ok (mkTobj (t_data t) (Some md),
      map (fun v => linear_quantize_clamp v (q_scale md) (q_zp md) (Zq (q_lo md)) (Zq (q_hi md))) (t_data t), md).

(* ------------------------------------------------------------------------- *)
(** * Wrappers without weights, range_linear.py:1127-1254 *)
(** element-wise addition and concatenation re-quantize each input to the output scale *)
Definition rescale_input (ar : Z * Z) (sy : Q) (md : qmd) (q : Q) : Q :=
  linear_quantize_clamp (q + q_zp md) (sy / q_scale md) 0 (Zq (fst ar)) (Zq (snd ar)).
(** final step of forward (range_linear.py:565-589) on one accumulator element *)
Definition finish (bits : Z) (m : lqmode) (half : bool) (rs : Q) (out : Q * Q) (acc : Q) : Q :=
  let r := mode_range bits (PM m) in
  let acc := if half then relu acc else acc in
  linear_dequantize (linear_quantize_clamp acc rs (snd out) (Zq (fst r)) (Zq (snd r))) (fst out) (snd out).
(** range_linear.py:1195-1210: one output element; [ins] are the quantized inputs with their metadata *)
Definition eltwise_add (bits : Z) (m : lqmode) (accum : Z) (half : bool) (out : Q * Q) (ins : list (qmd * Q)) : Q :=
  let ar := get_quantized_range accum true false in
  finish bits m half 1 out
    (clamp (qsum (map (fun i => rescale_input ar (fst out) (fst i) (snd i)) ins)) (Zq (fst ar)) (Zq (snd ar))).
(** range_linear.py:1145-1158 *)
Definition concat_elem (bits : Z) (m : lqmode) (accum : Z) (half : bool) (out : Q * Q) (i : qmd * Q) : Q :=
  finish bits m half 1 out (rescale_input (get_quantized_range accum true false) (fst out) (fst i) (snd i)).
(** range_linear.py:1243-1261 *)
Definition qprod (l : list Q) : Q := fold_right Qmult 1 l.
Definition eltwise_mult (bits : Z) (m : lqmode) (accum : Z) (half : bool) (approx : option Z) (out : Q * Q) (ins : list (qmd * Q)) : Q :=
  let ar := get_quantized_range accum true false in
  let sacc := qprod (map (fun i => q_scale (fst i)) ins) in
  finish bits m half (approx_opt (fst out / sacc) approx) out
    (clamp (qprod (map (fun i => snd i + q_zp (fst i)) ins)) (Zq (fst ar)) (Zq (snd ar))).
(** range_linear.py:1085-1106: one element of input0 @ input1 (row of the first, column of the second) *)
Definition matmul_elem (bits : Z) (m : lqmode) (accum : Z) (half : bool) (approx : option Z) (out : Q * Q)
    (md0 md1 : qmd) (row col : list Q) : Q :=
  let ar := get_quantized_range accum true false in
  finish bits m half (approx_opt (fst out / (q_scale md0 * q_scale md1)) approx) out
    (clamp (dot (map (fun q => q + q_zp md0) row) (map (fun q => q + q_zp md1) col)) (Zq (fst ar)) (Zq (snd ar))).

(* ------------------------------------------------------------------------- *)
(** * Clipping values, range_linear.py:206-226, 361-373, 512-535, 874-887 *)
Definition get_clipping_values (scale zp : Q) (bits : Z) (m : pymode) : Q * Q :=
  let t := if is_sym m then (- 2 ^ (bits - 1), 2 ^ (bits - 1) - 1)%Z else (0, 2 ^ bits - 1)%Z in
  (linear_dequantize (Zq (fst t)) scale zp, linear_dequantize (Zq (snd t)) scale zp).
Inductive clipval := CScalar (v : Q) | CPair (a b : Q).
Definition check_clipping_val (v : clipval) (m : pymode) (half : bool) : res (Q * Q) :=
  match v with
  | CScalar x => if is_sym m then Ok (- x, x) else if half then Ok (0, x) else Raise ValueError
  | CPair a b => Ok (a, b)
  end.
(** the output_clipping setter: the new output scale and zero point *)
Definition set_output_clipping (bits : Z) (m : pymode) (half : bool) (v : clipval) : res (Q * Q) :=
  do r <- check_clipping_val v m half; params_from_range bits m (fst r) (snd r).
(** the weight_clipping setter of the weighted wrapper: the new weight scale and zero point *)
Definition set_weight_clipping (bits : Z) (m : pymode) (v : clipval) : res (Q * Q) :=
  do r <- check_clipping_val v m false;
  do p <- (if is_sym m then sym_params bits [Qabs (qmax (fst r) (snd r))] false
           else asym_params bits [fst r] [snd r] true (mode_is m ASS));
  first_param p.

(** range_linear.py:2008-2017 [_clip_stats] *)
Definition clip_stats (s : stats) (lo hi : Q) : stats :=
  let upd a b c d := mkStats a b c d (st_mean s) (st_std s) (st_b s) in
  if Qltb (st_max s) lo then upd lo lo lo lo
  else if Qltb hi (st_min s) then upd hi hi hi hi
  else upd (qmax lo (st_min s)) (qmin hi (st_max s)) (qmax lo (st_avg_min s)) (qmin hi (st_avg_max s)).

(* ------------------------------------------------------------------------- *)
(** * Quantization-aware training, range_linear.py:2177-2249 *)
Definition update_ema (biased value decay : Q) (step : Z) : Q * Q :=
  let biased := biased * decay + (1 - decay) * value in
  (biased, biased / (1 - decay ^ step)).

Record flq := mkFlq { f_minb : Q; f_min : Q; f_maxb : Q; f_max : Q; f_iter : Z; f_scale : Q; f_zp : Q }.
Definition flq_init : flq := mkFlq 0 0 0 0 0 1 0.
(** the update made by a training forward *)
Definition flq_train (bits : Z) (m : pymode) (decay : Q) (x : list Q) (s : flq) : res flq :=
  do mn <- row_min x; do mx <- row_max x;
  let it := (f_iter s + 1)%Z in
  let a := update_ema (f_minb s) mn decay it in
  let b := update_ema (f_maxb s) mx decay it in
  do p <- params_from_range bits m (snd a) (snd b);
  Ok (mkFlq (fst a) (snd a) (fst b) (snd b) it (fst p) (snd p)).
Definition flq_out (m : pymode) (dequantize : bool) (s : flq) (x : list Q) : list Q :=
  let r := if is_sym m then let a := qmax (Qabs (f_min s)) (Qabs (f_max s)) in (- a, a) else (f_min s, f_max s) in
  map (fun v => quantize_ste (clamp v (fst r) (snd r)) (f_scale s) (f_zp s) dequantize) x.
Definition flq_forward (bits : Z) (m : pymode) (decay : Q) (dequantize training : bool) (x : list Q) (s : flq) : res (flq * list Q) :=
  do s <- (if training then flq_train bits m decay x s else Ok s);
  Ok (s, flq_out m dequantize s x).

(** range_linear.py:2298-2310 [linear_quantize_param], the quantization-aware-training weight quantization:
    [mode] is the ModuleQuantMode made by [verify_quant_mode] (line 2281), never a LinearQuantMode.
    [embedding]: the module is an nn.Embedding; [dims] is param_fp.dim(). *)
Definition qat_param (bits : Z) (acts wts : lqmode) (per_channel_wts embedding : bool) (dims : nat) (rows : list (list Q)) : res (list (list Q)) :=
  let perch := negb embedding && per_channel_wts && (Nat.eqb dims 2 || Nat.eqb dims 4) in
  do par <- params_from_rows rows bits (PPair acts wts) perch;
  Ok (mapi (fun c row => map (fun x => quantize_ste x (scale_of par c) (zp_of par c) true) row) 0 rows).
