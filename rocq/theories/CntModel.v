(** Model, in IEEE double precision, of the counting of non-zero weights: distiller/utils.py:166-197 (density, sparsity),
    365-394 (model_sparsity, model_params_size, model_params_stats), the columns of model_summaries.py:81-124
    (weights_sparsity_summary) and of the CSV logger (data_loggers/logger.py:240-259).

    Python's float is Flocq's binary64 with rounding to nearest even; weights are binary32.  Sizes are below 2^53, so
    that Python's integers are converted to floats without rounding.  The same functions over exact rationals: StatsModel
    and SumModel (C35, C36 ...). *)
From Coq Require Import String List ZArith Reals Bool.
From Flocq Require Import Core BinarySingleNaN.
From Verif Require Import Base.
Import ListNotations.
Open Scope list_scope.
Open Scope Z_scope.

Definition f64 := binary_float 53 1024.
Definition f32 := binary_float 24 128.
Definition p53 : Prec_gt_0 53 := eq_refl.
Definition e1024 : Prec_lt_emax 53 1024 := eq_refl.
(** float(z) *)
Definition of_int (z : Z) : f64 := binary_normalize 53 1024 p53 e1024 mode_NE z 0 false.
Definition fdiv (x y : f64) : f64 := @Bdiv 53 1024 p53 e1024 mode_NE x y.
Definition fmul (x y : f64) : f64 := @Bmult 53 1024 p53 e1024 mode_NE x y.
Definition fadd (x y : f64) : f64 := @Bplus 53 1024 p53 e1024 mode_NE x y.
Definition fsub (x y : f64) : f64 := @Bminus 53 1024 p53 e1024 mode_NE x y.

(** tensor.abs().gt(0): false for zeros and NaN *)
Definition nonzero (x : f32) : bool := match x with B754_zero _ => false | B754_nan => false | _ => true end.
Definition numel (t : list f32) : Z := Z.of_nat (length t).
Definition nnz (t : list f32) : Z := Z.of_nat (length (filter nonzero t)).

(** utils.py:166-181: float(nonzero.item()) / torch.numel(tensor) *)
Definition density (t : list f32) : res f64 :=
  if numel t =? 0 then Raise ZeroDivisionError else Ok (fdiv (of_int (nnz t)) (of_int (numel t))).
(** utils.py:184-197 *)
Definition sparsity (t : list f32) : res f64 := do d <- density t; Ok (fsub (of_int 1) d).

(** model_summaries.py:99, logger.py:258: int(_density * param.numel()) *)
Definition shown (t : list f32) : res Z := do d <- density t; Ok (Btrunc (fmul d (of_int (numel t)))).

(** utils.py:377-394; the parameters that are counted *)
Definition add_param (acc : Z * f64) (t : list f32) : res (Z * f64) :=
  do d <- density t;
  Ok (fst acc + numel t, fadd (snd acc) (fmul (of_int (numel t)) d)).
Definition model_params_stats (params : list (list f32)) : res (f64 * Z * f64) :=
  do s <- foldM add_param params (0, of_int 0);
  if fst s =? 0 then Raise ZeroDivisionError
  else Ok (fmul (fsub (of_int 1) (fdiv (snd s) (of_int (fst s)))) (of_int 100), fst s, snd s).
(** the line of totals of weights_sparsity_summary, model_summaries.py:112-118: int(sparse_params_size) *)
Definition shown_total (params : list (list f32)) : res Z := do s <- model_params_stats params; Ok (Btrunc (snd s)).
