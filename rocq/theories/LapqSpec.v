(** Specification for the numerical search of quantization parameters (C85, C86), independent of the code's helpers. *)
From Coq Require Import String List ZArith QArith Qabs Bool Arith.
From Verif Require Import Base QuantModel QuantSpec RangeModel LapqModel.
Import ListNotations.

(** The assignment a vector denotes for a dictionary of parameters: the same names in the same order; the magnitude of the
    vector's element for a number, the two elements in increasing order for a (min, max) pair. *)
Inductive denotes : dict qpv -> list Q -> dict qpv -> Prop :=
| den_nil : denotes [] [] []
| den_one k v d x xs d' : denotes d xs d' -> denotes ((k, QOne v) :: d) (x :: xs) ((k, QOne (Qabs x)) :: d')
| den_pair k v w d a b xs d' lo hi : denotes d xs d' -> lo <= hi -> (lo = a /\ hi = b) \/ (lo = b /\ hi = a) ->
    denotes ((k, QPair v w) :: d) (a :: b :: xs) ((k, QPair lo hi) :: d').

(** [s] ends with [suf] *)
Definition ends_with (suf s : string) : Prop := exists p, s = (p ++ suf)%string.

(** What a model must satisfy before a search: distinct names; no zero bit-width (None means 'not quantized') *)
Definition wf_model (ms : model) : Prop :=
  NoDup (map fst ms) /\ Forall (fun e : string * (wcfg * wst) => c_acts (fst (snd e)) <> Some 0%Z) ms.

(** What the search on clipping values needs: every wrapper without weights has a quantized output with known statistics,
    and the float weights were saved *)
Definition clippable (ms : model) : Prop :=
  Forall (fun e : string * (wcfg * wst) => let c := fst (snd e) in
    match c_kind c with
    | KAct => c_acts c <> None /\ c_preset c = true
    | _ => c_save c = true
    end) ms.

(** No wrapper is quantized asymmetrically in a way a search on scales cannot handle *)
Definition symmetric_model (ms : model) : Prop :=
  Forall (fun e : string * (wcfg * wst) => let c := fst (snd e) in
    (c_kind c <> KEmb -> c_acts c <> None -> asym (c_ma c) = true -> c_half c = true) /\
    (c_kind c <> KAct -> asym (c_mw c) = false)) ms.

(** The parts of a wrapper that a search on scales must not touch *)
Definition frozen (s s' : wst) : Prop :=
  s_float s' = s_float s /\ s_weight s' = s_weight s /\ s_shifted s' = s_shifted s /\ s_wzp s' = s_wzp s /\ s_ozp s' = s_ozp s.

(** every scale of a wrapper is positive *)
Definition positive_scales (ms : model) : Prop :=
  Forall (fun e : string * (wcfg * wst) => 0 < s_wscale (snd (snd e)) /\ 0 < s_oscale (snd (snd e))) ms.

(** The integers of a mode *)
Definition int_range (bits : Z) (m : lqmode) : Z * Z :=
  match m with
  | ASU => (0, 2 ^ bits - 1)%Z
  | SYMR => (- (2 ^ (bits - 1) - 1), 2 ^ (bits - 1) - 1)%Z
  | _ => (- 2 ^ (bits - 1), 2 ^ (bits - 1) - 1)%Z
  end.
(** A stored weight [w] that was quantized from the float weight [f]: the nearest integer of the mode; as a float value again
    in a layer whose activations are not quantized *)
Definition quantized_weight (c : wcfg) (scale zp f w : Q) : Prop :=
  exists r q : Z, is_round (scale * f - zp) r /\
  q = Z.min (Z.max r (fst (int_range (c_wts c) (c_mw c)))) (snd (int_range (c_wts c) (c_mw c))) /\
  w = (if (match c_kind c with KParam => true | _ => false end) && (match c_acts c with None => true | _ => false end)
       then (Zq q + zp) / scale else Zq q).
(** The clipping range that a scale and a zero point stand for: the values of the least and the greatest integer
    (for the restricted mode: of the unrestricted range) *)
Definition clip_range (bits : Z) (m : lqmode) (scale zp : Q) : Q * Q :=
  let r := int_range bits (match m with SYMR => SYM | _ => m end) in
  ((Zq (fst r) + zp) / scale, (Zq (snd r) + zp) / scale).
Definition clip_entry (one : bool) (r : Q * Q) : qpv := if one then QOne (snd r) else QPair (fst r) (snd r).
