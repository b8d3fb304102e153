(** PyTorch's own quantization arithmetic, written from its documentation, independently of the
    conversion: quantize_per_tensor, dequantize, the quantized linear / convolution layers.  PyTorch's
    rounding of ties depends on the backend, so it is any function to a nearest integer. *)
From Coq Require Import List ZArith QArith Qabs Bool.
From Verif Require Import Base Lists StructModel QuantModel RangeModel PtqModel.
Import ListNotations.

Definition nearest (rnd : Q -> Z) : Prop := forall x, Qabs (Zq (rnd x) - x) <= 1 # 2.

(** smallest and largest integer of a quantized dtype *)
Definition dt_min (dt : tdtype) : Z := match dt with QInt8 => -128 | QUInt8 => 0 | QInt32 => - 2 ^ 31 end%Z.
Definition dt_max (dt : tdtype) : Z := match dt with QInt8 => 127 | QUInt8 => 255 | QInt32 => 2 ^ 31 - 1 end%Z.

Definition t_quantize (rnd : Q -> Z) (dt : tdtype) (p : Q * Z) (x : Q) : Z :=
  Z.min (Z.max (rnd (x / fst p) + snd p) (dt_min dt)) (dt_max dt).
Definition t_dequantize (p : Q * Z) (q : Z) : Q := Zq (q - snd p) * fst p.

(** what a quantized tensor stands for *)
Definition pt_value (t : ptensor) : list (list Q) :=
  mapi (fun c row => map (t_dequantize (bc (1, 0%Z) (pt_par t) c)) row) 0 (pt_int t).

(** the parameters a torch quantized tensor may have *)
Definition t_valid (dt : tdtype) (p : Q * Z) : Prop := 0 < fst p /\ (dt_min dt <= snd p <= dt_max dt)%Z.

(** a quantized linear / convolution module on an input standing for the values [x] *)
Definition t_layer (rnd : Q -> Z) (g : geom) (l : ptlayer) (x : list Q) : list Z :=
  map (fun y => t_quantize rnd QUInt8 (l_scale l, l_zp l) (if l_relu l then relu y else y))
      (layer g (pt_value (l_weight l)) (Some (l_bias l)) x).

(** the values that Distiller's parameters for a saturation range [mn, mx] are made for (the symmetric modes
    use one bound, the largest absolute value; the asymmetric ones always include 0) *)
Definition d_in_range (m : lqmode) (mn mx x : Q) : Prop :=
  match m with
  | SYM | SYMR => Qabs x <= qmax (Qabs mn) (Qabs mx)
  | ASU | ASS => qmin mn 0 <= x <= qmax mx 0
  end.
(** quantized value of Distiller *)
Definition d_quantize (bits : Z) (m : lqmode) (p : Q * Q) (x : Q) : Q :=
  let r := mode_range bits (PM m) in linear_quantize_clamp x (fst p) (snd p) (Zq (fst r)) (Zq (snd r)).
Definition d_dequantize (p : Q * Q) (q : Q) : Q := linear_dequantize q (fst p) (snd p).

(** a history of forwards (all with inputs of scale [sx]) and state_dict calls; has a forward happened since
    construction / since the last state_dict *)
Definition plain_history (sx : Q) (ops : list pw_op) : Prop :=
  forall o, In o ops -> o = OpStateDict \/ exists md x, o = OpForward md x /\ q_scale md = sx.
Definition is_forward (o : pw_op) : bool := match o with OpForward _ _ => true | _ => false end.
Fixpoint forward_since_save (ops : list pw_op) (sh : bool) : bool :=
  match ops with
  | [] => sh
  | o :: r => forward_since_save r (match o with OpForward _ _ => true | OpStateDict => false | _ => sh end)
  end.
