(** Model of the element-wise pruners (distiller/pruning/{__init__,magnitude_pruner,
    level_pruner,sensitivity_pruner,splicing_pruner,automated_gradual_pruner,
    baidu_rnn_pruner}.py).  A pruner is a [SchedModel.pruner]: state -> metadata -> name ->
    weights -> current mask -> result.  torch.std / torch.mean are arbitrary functions
    (section variables, hence universally quantified in every theorem). *)
From Coq Require Import String List ZArith QArith Qabs Qround Bool Arith.
From Verif Require Import Base Lists SchedModel.
Import ListNotations.

(** Python's [int(x)] on a real number: truncation toward zero *)
Definition py_int (q : Q) : Z := if Qle_bool 0 q then Qfloor q else Qceiling q.

(** pruning/__init__.py:71-86 [create_mask_threshold_criterion] *)
Definition create_mask_threshold_criterion (t : tensor) (thr : Q) : tensor :=
  map (fun x => b2q (Qltb thr (Qabs x))) t.

(** [torch.topk(t, k, largest=False, sorted=True)]: RuntimeError when k is out of range *)
Definition topk_smallest (t : tensor) (k : Z) : res (list Q) :=
  if Z.leb 0 k && Z.leb k (Z.of_nat (length t))
  then Ok (firstn (Z.to_nat k) (qsort t))
  else Raise RuntimeError.

(** [bottomk[-1]] *)
Definition last_elem (l : list Q) : res Q :=
  match rev l with [] => Raise IndexError | x :: _ => Ok x end.

(** pruning/__init__.py:88-117 [create_mask_level_criterion] *)
Definition create_mask_level_criterion (t : tensor) (s : Q) : res tensor :=
  do bottomk <- topk_smallest (map Qabs t) (py_int (s * Zq (Z.of_nat (length t))));
  do thr <- last_elem bottomk;
  Ok (create_mask_threshold_criterion t thr).

(** magnitude_pruner.py:28-53 [MagnitudeParameterPruner]; the constructor asserts that '*' is a
    key. *)
Definition magnitude_ctor (thresholds : dict Q) : res (dict Q) :=
  if dmem thresholds "*" then Ok thresholds else Raise AssertionError.

Definition magnitude_pruner (thresholds : dict Q) : pruner unit :=
  fun ps _ n t _ =>
    do dflt <- (match dget thresholds "*" with Some x => Ok x | None => Raise KeyError end);
    let thr := match dget thresholds n with Some x => x | None => dflt end in
    Ok (ps, Some (create_mask_threshold_criterion t thr)).

(** level_pruner.py:36-42 [SparsityLevelParameterPruner.set_param_mask] *)
Definition level_pruner (levels : dict Q) : pruner unit :=
  fun ps _ n t mask =>
    let s := match dget levels n with
             | Some x => x
             | None => match dget levels "*" with Some x => x | None => 0 end
             end in
    if Qeq_bool s 0 then Ok (ps, mask)
    else do m <- create_mask_level_criterion t s; Ok (ps, Some m).

(** sensitivity lookup: sensitivity_pruner.py:44-51, splicing_pruner.py:46-52 *)
Definition lookup_default (d : dict Q) (n : string) : option Q :=
  match dget d n with Some x => Some x | None => dget d "*" end.

Section Stats.
Variable std : tensor -> Q.     (* torch.std *)
Variable mean : tensor -> Q.    (* torch.mean *)

(** pruning/__init__.py:119-137 [create_mask_sensitivity_criterion].  The cache is the
    attribute 'stddev' of the parameter object; here a dictionary keyed by the parameter
    name (parameter objects and names are in bijection during training; with
    fold_batchnorm the argument is a temporary tensor without cache, which is not
    modelled). *)
Definition create_mask_sensitivity_criterion (cache : dict Q) (n : string) (t : tensor) (s : Q)
  : dict Q * tensor :=
  let cache' := if dmem cache n then cache else dset cache n (std t) in
  let sd := match dget cache' n with Some x => x | None => 0 end in
  (cache', create_mask_threshold_criterion t (sd * s)).

(** sensitivity_pruner.py:43-53 [SensitivityPruner.set_param_mask] *)
Definition sensitivity_pruner (sens : dict Q) : pruner (dict Q) :=
  fun cache _ n t mask =>
    match lookup_default sens n with
    | None => Ok (cache, mask)
    | Some s => let r := create_mask_sensitivity_criterion cache n t s in
                Ok (fst r, Some (snd r))
    end.

Record splicing_cfg := mkSplicing {
  sp_sens : dict Q; sp_low : Q; sp_hi : Q; sp_mult : Q
}.

(** splicing_pruner.py:67-95 [SplicingPruner.create_mask]; cached (_std, _mean) of |param| *)
Definition splicing_create_mask (cache : dict (Q * Q)) (n : string) (t mask : tensor)
           (s low_mult hi_mult : Q) : dict (Q * Q) * tensor :=
  let cache' := if dmem cache n then cache
                else dset cache n (std (map Qabs t), mean (map Qabs t)) in
  let sm := match dget cache' n with Some x => x | None => (0, 0) end in
  let low := (snd sm + fst sm * s) * low_mult in
  let hi := (snd sm + fst sm * s) * hi_mult in
  let m1 := map2 (fun x c => if Qltb (Qabs x) low then 0 else c) t mask in
  let m2 := map2 (fun x c => if Qle_bool hi (Qabs x) then 1 else c) t m1 in
  (cache', m2).

(** splicing_pruner.py:45-65 [SplicingPruner.set_param_mask] *)
Definition splicing_pruner (c : splicing_cfg) : pruner (dict (Q * Q)) :=
  fun cache me n t mask =>
    match lookup_default (sp_sens c) n with
    | None => Ok (cache, mask)
    | Some s0 =>
        do s <- (if Qltb 0 (sp_mult c) then
                   match me_cur me with
                   | Some cur => Ok (s0 * (Zq (cur - me_start me) * sp_mult c + 1))
                   | None => Raise KeyError
                   end
                 else Ok s0);
        let cur_mask := match mask with Some m => m | None => map (fun _ => 1) t end in
        let r := splicing_create_mask cache n t cur_mask s (sp_low c) (sp_hi c) in
        Ok (fst r, Some (snd r))
    end.
End Stats.

(* ------------------------------------------------------------------------- *)
(** automated_gradual_pruner.py:24-27 [AgpPruningRate.__init__] *)
Definition agp_ctor (init final : Q) : res (Q * Q) :=
  if Qltb init final then Ok (init, final) else Raise AssertionError.

(** automated_gradual_pruner.py:29-37 [AgpPruningRate.step] *)
Definition agp_step (init final : Q) (cur start en freq : Z) : res Q :=
  if Z.eqb freq 0 then Raise ZeroDivisionError else
  let span := ((en - start - 1) / freq * freq)%Z in
  if Z.ltb 0 span then
    let x := 1 - Zq (cur - start) / Zq span in
    Ok (final + (init - final) * (x * x * x))
  else Raise AssertionError.

(** The metadata entries AutomatedGradualPrunerBase.set_param_mask (61-64) passes to [step];
    frequency is None for a policy scheduled with an explicit epoch list. *)
Definition agp_target (init final : Q) (me : meta) : res Q :=
  match me_cur me, me_freq me with
  | Some cur, Some freq => agp_step init final cur (me_start me) (me_end me) freq
  | None, _ => Raise KeyError
  | _, None => Raise TypeError
  end.

(** automated_gradual_pruner.py:71-89 [AutomatedGradualPruner] *)
Definition agp_pruner (weights : list string) (init final : Q) : pruner unit :=
  fun ps me n t mask =>
    if existsb (String.eqb n) weights then
      do s <- agp_target init final me;
      do m <- create_mask_level_criterion t s;
      Ok (ps, Some m)
    else Ok (ps, mask).

(* ------------------------------------------------------------------------- *)
Record baidu_cfg := mkBaidu {
  ba_weights : list string; ba_q : Q; ba_offset : Z; ba_mult : Q
}.

(** baidu_rnn_pruner.py:77-83: the slopes, computed at the first call *)
Definition baidu_slopes (c : baidu_cfg) (start en freq : Z) : res (Q * Q) :=
  let ramp := (ba_offset c + start)%Z in
  let den := (2 * (ramp - start) + 3 * (en - ramp))%Z in
  if Z.eqb den 0 then Raise ZeroDivisionError
  else let s := (2 * ba_q c * Zq freq) / Zq den in Ok (s, s * ba_mult c).

(** baidu_rnn_pruner.py:85-89: the threshold *)
Definition baidu_eps (c : baidu_cfg) (slopes : Q * Q) (cur start freq : Z) : Q :=
  let ramp := (ba_offset c + start)%Z in
  if Z.ltb cur ramp then fst slopes * Zq (cur - start + 1) / Zq freq
  else (fst slopes * Zq (ramp - start + 1) + snd slopes * Zq (cur - ramp + 1)) / Zq freq.

(** baidu_rnn_pruner.py:66-92 [BaiduRNNPruner.set_param_mask] *)
Definition baidu_pruner (c : baidu_cfg) : pruner (option (Q * Q)) :=
  fun ps me n t mask =>
    if existsb (String.eqb n) (ba_weights c) then
      match me_cur me, me_freq me with
      | Some cur, Some freq =>
          do sl <- (match ps with
                    | Some x => Ok x
                    | None => baidu_slopes c (me_start me) (me_end me) freq
                    end);
          if Z.eqb freq 0 then Raise ZeroDivisionError
          else Ok (Some sl, Some (create_mask_threshold_criterion t (baidu_eps c sl cur (me_start me) freq)))
      | None, _ => Raise KeyError
      | _, None => Raise TypeError
      end
    else Ok (ps, mask).
