(** Model of distiller/quantization/pytorch_quant_conversion.py (quantization parameters and quantized
    tensors) and of the conversion methods of range_linear.py.

    Parameters are lists with one element (per-tensor) or one per channel, tensors are lists of channel
    rows, as in RangeModel; cpu(), squeeze() and view() do not change the elements.  Exact rationals in
    place of floats.  num_bits is a positive integer. *)
From Coq Require Import String List ZArith QArith Qabs Qround Qpower Bool Arith.
From Verif Require Import Base Lists StructModel QuantModel RangeModel.
Import ListNotations.

(** torch.qint8, torch.quint8, torch.qint32 *)
Inductive tdtype := QInt8 | QUInt8 | QInt32.
Definition tdtype_eqb (a b : tdtype) : bool :=
  match a, b with QInt8, QInt8 | QUInt8, QUInt8 | QInt32, QInt32 => true | _, _ => false end.

(** the torch quantized engines named in the code *)
Inductive engine := FBGEMM | QNNPACK.

(** Tensor.long() of a float: truncation toward zero *)
Definition tlong (x : Q) : Z := if Qle_bool 0 x then Qfloor x else Qceiling x.

(** pytorch_quant_conversion.py:28-30 [need_reduce_range] *)
Definition need_reduce_range (eng : engine) (m : lqmode) (dt : tdtype) : bool :=
  match eng with FBGEMM => negb (is_sym (PM m) && tdtype_eqb dt QUInt8) | QNNPACK => false end.

(** pytorch_quant_conversion.py:69-81: scale and zero-point of the 7-bit range *)
Definition reduce1 (m : lqmode) (p : Q * Q) : Q * Q :=
  if is_sym (PM m) then (fst p * (63 / 127), snd p)
  else
    let ratio := 127 / 255 in
    let off := if lqmode_eqb m ASS then 128 else 0 in
    (fst p * ratio, Zq (rhe ((snd p - off) * ratio + off / 2))).

(** pytorch_quant_conversion.py:83-101: PyTorch's scale and zero-point of one element *)
Definition convert1 (bits : Z) (m : lqmode) (dt : tdtype) (p : Q * Q) : Q * Z :=
  let zp := tlong (snd p) in
  let half := (2 ^ (bits - 1))%Z in
  (1 / fst p,
   if is_sym (PM m) then (if tdtype_eqb dt QInt8 then zp else half)
   else
     let signed := lqmode_eqb m ASS in
     let zp := if signed && negb (tdtype_eqb dt QInt8) then (zp - half)%Z
               else if negb signed && tdtype_eqb dt QInt8 then (zp + half)%Z
               else zp in
     (- zp)%Z).

(** pytorch_quant_conversion.py:33-101 [distiller_qparams_to_pytorch] *)
Definition qparams_to_pytorch (par : list (Q * Q)) (bits : Z) (m : lqmode) (dt : tdtype) (reduce : bool) : res (list (Q * Z)) :=
  if tdtype_eqb dt QInt32 then Raise AssertionError else
  let sym := is_sym (PM m) in
  let reduce := if sym && tdtype_eqb dt QUInt8 then false else reduce in
  if reduce then
    if negb (Z.eqb bits 8) then Raise AssertionError
    else if sym && tdtype_eqb dt QUInt8 then Raise NotImplementedError
    else Ok (map (convert1 7 m dt) (map (reduce1 m) par))
  else Ok (map (convert1 bits m dt) par).

(** A PyTorch quantized tensor: the integers, and scale and zero-point: one, or one per channel *)
Record ptensor := mkPt { pt_int : list (list Z); pt_par : list (Q * Z) }.

(** conversion of a float to the integer dtype behind the quantized one; values outside its range wrap
    (PyTorch leaves them undefined) *)
Definition wrap_int (dt : tdtype) (z : Z) : Z :=
  match dt with
  | QUInt8 => z mod 256
  | QInt8 => (z + 128) mod 256 - 128
  | QInt32 => (z + 2 ^ 31) mod 2 ^ 32 - 2 ^ 31
  end%Z.

Definition is_int (x : Q) : bool := Qeq_bool x (Zq (tlong x)).

(** pytorch_quant_conversion.py:104-145 [distiller_quantized_tensor_to_pytorch], channel_dim = 0.  Without
    per_channel, a scale of several elements cannot be converted to the scalar that
    _make_per_tensor_quantized_tensor takes (ValueError). *)
Definition quantized_tensor_to_pytorch (t : list (list Q)) (par : list (Q * Q)) (bits : Z) (m : lqmode) (dt : tdtype)
    (per_channel : bool) : res ptensor :=
  if negb (forallb (forallb is_int) t) then Raise AssertionError else
  do cp <- qparams_to_pytorch par bits m dt false;
  let zp_diff := map2 (fun (p : Q * Q) (c : Q * Z) => Zq (- snd c) - snd p) par cp in
  let data := mapi (fun c row => map (fun x => wrap_int dt (tlong (x - bc 0 zp_diff c))) row) 0 t in
  if per_channel && Nat.ltb 1 (length par) then Ok (mkPt data cp)
  else match cp with [p] => Ok (mkPt data [p]) | _ => Raise ValueError end.

(* ------------------------------------------------------------------------- *)
(** * Conversion of the wrapper of a layer with weights *)
Inductive lkind := KLinear | KConv2d | KConv3d.

(** the native module: nnq.Linear, nniq.LinearReLU, ... (relu: the fused variants) *)
Record ptlayer := mkPtLayer { l_kind : lkind; l_relu : bool; l_weight : ptensor; l_bias : list Q; l_scale : Q; l_zp : Z }.

(** float(out_scale), int(out_zp): of a one-element tensor *)
Definition one_param (l : list (Q * Z)) : res (Q * Z) :=
  match l with [p] => Ok p | _ => Raise ValueError end.

(** range_linear.py:674-678 [to_pytorch_quant] and 978-1033 [_convert_to_pytorch_quant].  [conv3d_ok]: Conv3d is in
    torch.quantization.DEFAULT_MODULE_MAPPING.  An unsupported class makes the message of the assert
    fail instead: ','.join of classes is a TypeError.  Without a bias, wrapped.bias.clone() is an
    AttributeError (the check for a bias comes after it). *)
Definition pw_to_pytorch (conv3d_ok : bool) (cfg : pcfg) (k : lkind) (reduce : bool) (s : pw) : res ptlayer :=
  if negb (match p_acts cfg with Some b => Z.eqb b 8 | None => false end) then Raise AssertionError else
  if negb (preset_of cfg) then Raise AssertionError else
  if (match k with KConv3d => negb conv3d_ok | _ => false end) then Raise TypeError else
  if negb (Z.eqb (p_wts cfg) 8) then Raise AssertionError else
  do w <- quantized_tensor_to_pytorch (w_weight s) (w_par s) (p_wts cfg) (p_mode_w cfg) QInt8 (p_per_channel cfg);
  match w_bias s with
  | None => Raise AttributeError
  | Some b =>
      let b' := if forallb is_int b then mapi (fun c x => linear_dequantize x (bc 1 (w_accum_scale s) c) 0) 0 b else b in
      do o <- qparams_to_pytorch [w_out s] 8 (p_mode_a cfg) QUInt8 reduce;
      do o <- one_param o;
      Ok (mkPtLayer k (p_half cfg) w b' (fst o) (snd o))
  end.
