(** Model of distiller/quantization/q_utils.py and clipped_linear.py.  Tensors are lists of exact
    rationals; scalars are handled element-wise.  Floating-point rounding is not modelled, the
    explicit round() (half to even, torch.round) is. *)
From Coq Require Import String List ZArith QArith Qabs Qround Qpower Bool Arith.
From Verif Require Import Base Lists StructModel.
Import ListNotations.

(** torch.round: to the nearest integer, halves to the even one *)
Definition rhe (q : Q) : Z :=
  let f := Qfloor q in
  let d := q - Zq f in
  if Qltb d (1 # 2) then f
  else if Qltb (1 # 2) d then (f + 1)%Z
  else if Z.even f then f else (f + 1)%Z.

Definition qmin (a b : Q) : Q := if Qle_bool a b then a else b.

(** torch.clamp(x, min, max) = min(max(x, lo), hi) *)
Definition clamp (x lo hi : Q) : Q := qmin (qmax x lo) hi.

(** q_utils.py:46-76 [symmetric_linear_quantization_params]: scale and zero point of one element *)
Definition sym_n (bits : Z) (restrict : bool) : Q :=
  if restrict then Zq (2 ^ (bits - 1) - 1) else Zq (2 ^ bits - 1) / 2.
Definition sym1 (bits : Z) (restrict : bool) (sat : Q) : Q * Q :=
  let n := sym_n bits restrict in
  (n / (if Qeq_bool sat 0 then n else sat), 0).
Definition sym_params (bits : Z) (sat : list Q) (restrict : bool) : res (list (Q * Q)) :=
  if existsb (fun s => Qltb s 0) sat then Raise ValueError
  else Ok (map (sym1 bits restrict) sat).

(** q_utils.py:79-112 [asymmetric_linear_quantization_params]; saturation_min and saturation_max
    of equal length (or broadcast beforehand) *)
Definition asym1 (bits : Z) (integral signed : bool) (mn mx : Q) : Q * Q :=
  let n := Zq (2 ^ bits - 1) in
  let mn := qmin mn 0 in
  let mx := qmax mx 0 in
  let diff := mx - mn in
  let diff := if Qeq_bool diff 0 then n else diff in
  let scale := n / diff in
  let zp := scale * mn in
  let zp := if integral then Zq (rhe zp) else zp in
  (scale, if signed then zp + Zq (2 ^ (bits - 1)) else zp).
Definition asym_params (bits : Z) (mn mx : list Q) (integral signed : bool) : res (list (Q * Q)) :=
  if existsb (fun p : Q * Q => Qltb (snd p) (fst p)) (combine mn mx) then Raise ValueError
  else Ok (map2 (asym1 bits integral signed) mn mx).

(** q_utils.py:122-126, 129-131, 134-138 *)
Definition linear_quantize (x scale zp : Q) : Z := rhe (scale * x - zp).
Definition linear_quantize_clamp (x scale zp lo hi : Q) : Q := clamp (Zq (linear_quantize x scale zp)) lo hi.
Definition linear_dequantize (q scale zp : Q) : Q := (q + zp) / scale.

(** q_utils.py:285-312 [get_quantized_range] *)
Definition get_quantized_range (bits : Z) (signed restrict : bool) : Z * Z :=
  if signed then
    let qmax := (2 ^ (bits - 1) - 1)%Z in
    ((if restrict then - qmax else - qmax - 1)%Z, qmax)
  else (0, 2 ^ bits - 1)%Z.

(** q_utils.py:315-323 [LinearQuantizeSTE.forward] *)
Definition quantize_ste (x scale zp : Q) (dequantize : bool) : Q :=
  if dequantize then linear_dequantize (Zq (linear_quantize x scale zp)) scale zp
  else Zq (linear_quantize x scale zp).

(** floor(log2 x) for x > 0 *)
Definition floor_log2 (x : Q) : Z :=
  if Qle_bool 1 x then Z.log2 (Qfloor x) else (- Z.log2_up (Qceiling (/ x)))%Z.

(** q_utils.py:184-203 *)
Definition scale_approx_shift (s : Q) (mult_bits : Z) (limit : bool) : Z :=
  let k := floor_log2 (Zq (2 ^ mult_bits - 1) / s) in
  if limit then Z.min mult_bits k else k.
Definition scale_approx_mult (s : Q) (shift : Z) : Z := Qfloor (s * 2 ^ shift).
Definition approx_scale (s : Q) (mult_bits : Z) (limit : bool) : Q :=
  let k := scale_approx_shift s mult_bits limit in
  Zq (scale_approx_mult s k) / 2 ^ k.

(* ------------------------------------------------------------------------- *)
(** q_utils.py:141-181: range statistics.  The rows are the slices along per_dim (a single row
    when per_dim is None); min of an empty tensor is a RuntimeError. *)
Definition row_min (l : list Q) : res Q :=
  match l with [] => Raise RuntimeError | x :: r => Ok (fold_left qmin r x) end.
Definition row_max (l : list Q) : res Q :=
  match l with [] => Raise RuntimeError | x :: r => Ok (fold_left qmax r x) end.
Fixpoint mapM {A B} (f : A -> res B) (l : list A) : res (list B) :=
  match l with [] => Ok [] | a :: r => do b <- f a; do bs <- mapM f r; Ok (b :: bs) end.

(** the rows of t.view(shape[0], .., shape[per_dim], -1) *)
Definition dim_rows (t : nd) (per_dim : option nat) : res (list (list Q)) :=
  match per_dim with
  | None => Ok [nd_data t]
  | Some d => if Nat.ltb d (ndim t) then view_rows (numel (skipn (S d) (nd_shape t))) (nd_data t)
              else Raise ValueError
  end.
Definition tensor_min_max (t : nd) (per_dim : option nat) : res (list (Q * Q)) :=
  do rows <- dim_rows t per_dim;
  mapM (fun r => do a <- row_min r; do b <- row_max r; Ok (a, b)) rows.

Definition mean (l : list Q) : Q := qsum l / Zq (Z.of_nat (length l)).
(** q_utils.py:151-153 *)
Definition tensor_avg_min_max (t : nd) (d : option nat) : res (Q * Q) :=
  do p <- tensor_min_max t d; Ok (mean (map fst p), mean (map snd p)).
(** q_utils.py:156-163 *)
Definition tensor_max_abs (t : nd) (d : option nat) : res (list Q) :=
  do p <- tensor_min_max t d; Ok (map (fun x => qmax (Qabs (fst x)) (Qabs (snd x))) p).
Definition tensor_avg_max_abs (t : nd) (d : option nat) : res Q :=
  do p <- tensor_avg_min_max t d; Ok (qmax (Qabs (fst p)) (Qabs (snd p))).

(** q_utils.py:166-181; [std] is torch.std (irrational-valued: any function) *)
Definition mean_n_stds_min_max (std : list Q -> Q) (t : list Q) (n_stds : Q) : res (Q * Q) :=
  if Qle_bool n_stds 0 then Raise ValueError else
  do a <- row_min t; do b <- row_max t;
  let m := mean t in let s := std t in
  Ok (qmax a (m - n_stds * s), qmin b (m + n_stds * s)).

(** q_utils.py:206-282: ACIQ clipping.  [alpha] is the result of get_alpha_laplace / _gauss *)
Definition aciq_symmetric (m alpha : Q) : Q * Q := let c := Qabs m + alpha in (- c, c).
Definition aciq_asymmetric (m mn alpha : Q) (half : bool) : Q * Q :=
  let mn := qmax mn (m - alpha) in (mn, mn + (if half then alpha else 2 * alpha)).
(** q_utils.py:220-230: the Laplace alpha of a tensor: the tabulated factor times the mean
    absolute deviation; the Gauss alpha has the standard deviation instead *)
Definition alpha_laplace (half : bool) (bits : nat) : res Q :=
  match nth_error (if half then [186; 283; 389; 502; 620; 741; 864; 989; 1116]%Z
                   else [105; 186; 283; 389; 503; 620; 741; 864; 989]%Z) bits with
  | Some z => Ok (Zq z / 100) | None => Raise KeyError end.
Definition alpha_gauss (half : bool) (bits : nat) : res Q :=
  match bits with
  | O => Raise KeyError
  | S b => match nth_error (if half then [171; 215; 255; 293; 328; 361; 392; 420]%Z
                            else [124; 171; 215; 255; 293; 328; 361; 392]%Z) b with
           | Some z => Ok (Zq z / 100) | None => Raise KeyError end
  end.
Definition get_alpha_laplace (t : list Q) (bits : nat) (half : bool) : res Q :=
  do a <- alpha_laplace half bits; Ok (mean (map (fun x => Qabs (x - mean t)) t) * a).

(* ------------------------------------------------------------------------- *)
(** clipped_linear.py:31-43 [ClippedLinearQuantization]: constructor and forward *)
Definition clipped_params (bits : Z) (clip : Q) : res (Q * Q) :=
  if Qltb clip 0 then Raise ValueError else Ok (asym1 bits true false 0 clip).
Definition clipped_forward (bits : Z) (clip : Q) (dequantize : bool) (x : Q) : res Q :=
  do p <- clipped_params bits clip;
  Ok (quantize_ste (clamp x 0 clip) (fst p) (snd p) dequantize).

(** clipped_linear.py:51-67 [LearnedClippedLinearQuantization.forward] with the current clip_val *)
Definition learned_clipped_forward (bits : Z) (clip : Q) (dequantize : bool) (x : Q) : res Q :=
  let x := qmax x 0 in
  let x := if Qltb x clip then x else clip in
  do p <- clipped_params bits clip;
  Ok (quantize_ste x (fst p) (snd p) dequantize).

(** clipped_linear.py:91-95 [wrpn_quantize_param] *)
Definition wrpn (bits : Z) (x : Q) : Q :=
  let p := sym1 bits false 1 in quantize_ste (clamp x (-1) 1) (fst p) (snd p) true.

(** clipped_linear.py:120-127 [DorefaParamsBinarizationSTE.forward] *)
Definition qsign (x : Q) : Q := if Qltb 0 x then 1 else if Qltb x 0 then -1 else 0.
Definition dorefa_binary (t : list Q) : list Q :=
  let e := mean (map Qabs t) in
  map (fun x => (if Qeq_bool x 0 then 1 else qsign x) * e) t.

(** clipped_linear.py:108-117 [dorefa_quantize_param]; [th] is torch.tanh (any function);
    an element is None when it is NaN (0/0 for an all-zero tensor) *)
Definition dorefa_param (th : Q -> Q) (bits : Z) (t : list Q) : list (option Q) :=
  if Z.eqb bits 1 then map Some (dorefa_binary t)
  else
    let p := asym1 bits true false 0 1 in
    let t := map th t in
    let mx := max_norm t in
    map (fun x => if Qeq_bool mx 0 then None
                  else Some (2 * quantize_ste (x / (2 * mx) + (1 # 2)) (fst p) (snd p) true - 1)) t.
