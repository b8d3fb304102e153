(** Model of the training-time side of distiller/quantization/clipped_linear.py and of
    LinearQuantizeSTE (distiller/quantization/q_utils.py:315-328): what the forward passes compute
    and which gradients autograd hands back, plus the optimizer's parameter groups of PACTQuantizer.

    A tensor that takes part in a backward pass is its value together with the map from the gradient
    of the loss with respect to it to the gradients of the loss with respect to the leaves (the input
    or float weights, and PACT's clip_val).  A tensor used twice adds the two contributions.  The
    code's functions are the compositions of the primitives below in the order of the source; the
    gradients of the primitives are those of PyTorch 1.3's derivatives.yaml.

    Simplifications: real numbers instead of floats (Coq.Reals), so no NaN: 0 / 0 of an all-zero
    DoReFa tensor is not represented and the theorems exclude it; tensors are flat; the in-place
    variants of clamp, relu and the quantizer compute the same values and gradients, and the
    overwritten caller's buffer is not modelled. *)
From Coq Require Import String List Reals ZArith Arith Bool.
From Verif Require Import Base.
Import ListNotations.
Open Scope R_scope.

(** gradients of the two leaves: a tensor and a scalar parameter *)
Definition grads := (list R * R)%type.
Definition gadd (a b : grads) : grads := (map2 Rplus (fst a) (fst b), snd a + snd b).
Record tensor := mkT { val : list R; back : list R -> grads }.
Record scalar := mkS { sval : R; sback : R -> grads }.

Definition total (l : list R) : R := fold_right Rplus 0 l.

(* ------------------------------------------------------------------------- *)
(** * Primitives of autograd *)

Definition leaf (x : list R) : tensor := mkT x (fun g => (g, 0)).
(** a one-element parameter; [n] is the size of the tensor leaf, whose gradient stays 0 *)
Definition leaf_scalar (n : nat) (c : R) : scalar := mkS c (fun g => (repeat 0 n, g)).

(** an element-wise function with its local derivative *)
Definition pointwise (f d : R -> R) (t : tensor) : tensor :=
  mkT (map f (val t)) (fun g => back t (map2 (fun x gx => gx * d x) (val t) g)).

(** torch.clamp: the gradient passes where min <= x <= max *)
Definition clamp (lo hi : R) : tensor -> tensor :=
  pointwise (fun x => Rmin (Rmax x lo) hi)
            (fun x => if Rle_dec lo x then if Rle_dec x hi then 1 else 0 else 0).
(** torch.relu: the gradient passes where x > 0 *)
Definition relu : tensor -> tensor :=
  pointwise (fun x => Rmax x 0) (fun x => if Rlt_dec 0 x then 1 else 0).
(** torch.tanh *)
Definition ttanh : tensor -> tensor := pointwise tanh (fun x => 1 - tanh x * tanh x).
(** torch.abs *)
Definition rsign (x : R) : R := if Rlt_dec 0 x then 1 else if Rlt_dec x 0 then -1 else 0.
Definition tabs : tensor -> tensor := pointwise Rabs rsign.
(** tensor * constant, tensor + constant *)
Definition tmulc (k : R) : tensor -> tensor := pointwise (fun x => k * x) (fun _ => k).
Definition taddc (k : R) : tensor -> tensor := pointwise (fun x => x + k) (fun _ => 1).

(** torch.where(t < c, t, c) with a one-element parameter c: each element's gradient goes to the
    branch it took; the parameter's one is summed over the broadcast dimension *)
Definition where_lt (t : tensor) (c : scalar) : tensor :=
  mkT (map (fun x => if Rlt_dec x (sval c) then x else sval c) (val t))
      (fun g => gadd (back t (map2 (fun x gx => if Rlt_dec x (sval c) then gx else 0) (val t) g))
                     (sback c (total (map2 (fun x gx => if Rlt_dec x (sval c) then 0 else gx) (val t) g)))).

(** Tensor.max() of a non-empty tensor: the gradient goes to the first element attaining it *)
Fixpoint maximum (x : R) (l : list R) : R := match l with [] => x | y :: r => Rmax x (maximum y r) end.
Fixpoint first_hit (m g : R) (l : list R) : list R :=
  match l with
  | [] => []
  | x :: r => if Req_EM_T x m then g :: map (fun _ => 0) r else 0 :: first_hit m g r
  end.
Definition tmax (t : tensor) : res scalar :=
  match val t with
  | [] => Raise RuntimeError
  | x :: r => Ok (mkS (maximum x r) (fun g => back t (first_hit (maximum x r) g (val t))))
  end.
Definition smulc (k : R) (s : scalar) : scalar := mkS (k * sval s) (fun g => sback s (k * g)).

(** tensor / scalar tensor *)
Definition tdivs (t : tensor) (s : scalar) : tensor :=
  mkT (map (fun x => x / sval s) (val t))
      (fun g => gadd (back t (map (fun gx => gx / sval s) g))
                     (sback s (total (map2 (fun x gx => - gx * x / (sval s * sval s)) (val t) g)))).

(* ------------------------------------------------------------------------- *)
(** * q_utils.py *)

(** torch.round: to the nearest integer, ties to even *)
Definition rnd (x : R) : R :=
  let n := Int_part x in
  if Rlt_dec (frac_part x) (1 / 2) then IZR n
  else if Rlt_dec (1 / 2) (frac_part x) then IZR (n + 1)
  else if Z.even n then IZR n else IZR (n + 1).

(** q_utils.py:46-76 [symmetric_linear_quantization_params] (restrict_qrange = False), the scale; the zero
    point is 0 *)
Definition sym_scale (bits : nat) (sat : R) : res R :=
  if Rlt_dec sat 0 then Raise ValueError
  else let n := (2 ^ bits - 1) / 2 in
       Ok (n / (if Req_EM_T sat 0 then n else sat)).

(** q_utils.py:79-113 [asymmetric_linear_quantization_params] (integral zero point, unsigned) *)
Definition asym_params (bits : nat) (lo hi : R) : res (R * R) :=
  if Rlt_dec hi lo then Raise ValueError
  else let n := 2 ^ bits - 1 in
       let lo := Rmin lo 0 in
       let hi := Rmax hi 0 in
       let diff := if Req_EM_T (hi - lo) 0 then n else hi - lo in
       Ok (n / diff, rnd (n / diff * lo)).

(** q_utils.py:122-126 [linear_quantize], 134-138 [linear_dequantize] *)
Definition linear_quantize (scale zp x : R) : R := rnd (scale * x - zp).
Definition linear_dequantize (scale zp x : R) : R := (x + zp) / scale.

(** q_utils.py:315-328 [LinearQuantizeSTE]: forward quantizes, backward returns the gradient it got *)
Definition ste (scale zp : R) (dequantize : bool) (t : tensor) : tensor :=
  mkT (map (fun x => let q := linear_quantize scale zp x in
                     if dequantize then linear_dequantize scale zp q else q) (val t))
      (fun g => back t g).

(* ------------------------------------------------------------------------- *)
(** * clipped_linear.py *)

(** clipped_linear.py:31-43 [ClippedLinearQuantization]: constructor, then forward *)
Definition clipped_linear (bits : nat) (clip_val : R) (dequantize : bool) (input : tensor) : res tensor :=
  do p <- asym_params bits 0 clip_val;
  Ok (ste (fst p) (snd p) dequantize (clamp 0 clip_val input)).

(** clipped_linear.py:51-67 [LearnedClippedLinearQuantization.forward]; the scale is computed under
    no_grad *)
Definition learned_clipped_linear (bits : nat) (clip_val : scalar) (dequantize : bool) (input : tensor) : res tensor :=
  let input := relu input in
  let input := where_lt input clip_val in
  do p <- asym_params bits 0 (sval clip_val);
  Ok (ste (fst p) (snd p) dequantize input).

(** clipped_linear.py:91-95 [wrpn_quantize_param] *)
Definition wrpn_quantize_param (bits : nat) (param_fp : tensor) : res tensor :=
  do scale <- sym_scale bits 1;
  Ok (ste scale 0 true (clamp (-1) 1 param_fp)).

(** clipped_linear.py:120-131 [DorefaParamsBinarizationSTE]: forward and backward *)
Definition dorefa_binarize (input : tensor) : tensor :=
  let e := total (map Rabs (val input)) / INR (length (val input)) in
  mkT (map (fun x => (if Req_EM_T x 0 then 1 else rsign x) * e) (val input))
      (fun g => back input g).

(** clipped_linear.py:108-117 [dorefa_quantize_param] *)
Definition dorefa_quantize_param (bits : nat) (param_fp : tensor) : res tensor :=
  if Nat.eqb bits 1 then Ok (dorefa_binarize param_fp)
  else
    do p <- asym_params bits 0 1;
    let out := ttanh param_fp in
    do m <- tmax (tabs out);
    let out := taddc (1 / 2) (tdivs out (smulc 2 m)) in
    let out := ste (fst p) (snd p) true out in
    Ok (taddc (-1) (tmulc 2 out)).

(* ------------------------------------------------------------------------- *)
(** * The optimizer's parameter groups *)

(** one group of torch.optim.SGD: the parameters (by identity) and the two options that matter here *)
Record group := mkG { g_params : list nat; g_lr : R; g_wd : R }.
Record optim := mkO { o_lr : R; o_wd : R; o_groups : list group }.

(** torch Optimizer.add_param_group: absent options take the optimizer's defaults; a parameter that
    is already in another group is an error *)
Definition add_param_group (o : optim) (ps : list nat) (wd : option R) : res optim :=
  if existsb (fun p => existsb (Nat.eqb p) (flat_map g_params (o_groups o))) ps
  then Raise ValueError
  else Ok (mkO (o_lr o) (o_wd o)
               (o_groups o ++ [mkG ps (o_lr o) (match wd with Some w => w | None => o_wd o end)])).

(** Python's [a in b] on strings *)
Fixpoint str_in (a b : string) : bool :=
  orb (String.prefix a b) (match b with EmptyString => false | String _ b' => str_in a b' end).

(** clipped_linear.py:195-199 [PACTQuantizer._get_new_optimizer_params_groups]; [named] is
    model.named_parameters(): every parameter once, with its first name *)
Definition pact_groups (named : list (string * nat)) (act_clip_decay : option R) : list (list nat * option R) :=
  [(map snd (filter (fun p => str_in "clip_val" (fst p)) named), act_clip_decay)].

(** quantizer.py:259-262 [prepare_model], the optimizer (None: no optimizer was given) *)
Definition update_optimizer (groups : list (list nat * option R)) (o : option optim) : res (option optim) :=
  match o with
  | None => Ok None
  | Some o => do o <- foldM (fun o g => add_param_group o (fst g) (snd g)) groups o; Ok (Some o)
  end.

(** torch.optim.SGD.step without momentum; a parameter without a gradient is skipped *)
Definition sgd_group (grad : nat -> option (list R)) (v : nat -> list R) (g : group) : nat -> list R :=
  fold_left (fun v p =>
    match grad p with
    | None => v
    | Some gr => fun q => if Nat.eqb q p
                          then map2 (fun w d => w - g_lr g * (d + g_wd g * w)) (v p) gr
                          else v q
    end) (g_params g) v.
Definition sgd_step (o : optim) (grad : nat -> option (list R)) (v : nat -> list R) : nat -> list R :=
  fold_left (sgd_group grad) (o_groups o) v.
