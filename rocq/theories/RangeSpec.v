(** Specification vocabulary for range-based quantization. *)
From Coq Require Import String List ZArith QArith Qabs Bool.
From Verif Require Import Base Lists StructModel QuantModel QuantSpec RangeModel.
Import ListNotations.

(** What a quantized tensor element stands for: its dequantized value. *)
Definition fq (x scale zp : Q) (lo hi : Z) : Q :=
  linear_dequantize (linear_quantize_clamp x scale zp (Zq lo) (Zq hi)) scale zp.

(** A history of calls on a wrapper in which the weight parameters are only changed while the stored
    weights are not shifted (i.e. no forward since construction or the last state_dict), through the
    wrapper, and the scale of every input satisfies [ok]. *)
Fixpoint good_history (asym : bool) (ok : Q -> Prop) (shifted : bool) (ops : list pw_op) : Prop :=
  match ops with
  | [] => True
  | OpForward md _ :: r => ok (q_scale md) /\ good_history asym ok (shifted || asym) r
  | OpStateDict :: r => good_history asym ok false r
  | OpSet WScale v :: r => shifted = false /\ 0 < v /\ good_history asym ok shifted r
  | OpSet WZp v :: r => shifted = false /\ (asym = false -> v == 0) /\ good_history asym ok shifted r
  | OpSet _ _ :: r => good_history asym ok shifted r
  | OpQuantizerSet WScale _ :: _ | OpQuantizerSet WZp _ :: _ => False
  | OpQuantizerSet _ _ :: r => good_history asym ok shifted r
  end.

(** The float computation an output position stands for: the layer applied to the dequantized input
    and the dequantized weights, with the float bias and the fused ReLU. *)
Definition weight_fq (bits : Z) (m : lqmode) (par : list (Q * Q)) (W : list (list Q)) : list (list Q) :=
  let r := mode_range bits (PM m) in
  mapi (fun c row => map (fun x => fq x (scale_of par c) (zp_of par c) (fst r) (snd r)) row) 0 W.
Definition input_fq (md : qmd) (x : list Q) : list Q := map (fun v => fq v (q_scale md) (q_zp md) (q_lo md) (q_hi md)) x.
Definition relu_if (half : bool) (x : Q) : Q := if half then relu x else x.
