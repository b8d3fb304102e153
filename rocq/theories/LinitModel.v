(** Model of the initialisation of the numerical search of quantization parameters
    (distiller/quantization/ptq_coordinate_search.py:95-269): the choice of a mode by name, the re-creation of the wrappers,
    and the optimisation of one layer.

    Wrappers are those of ReplModel (settings) in the initialisation of a model, and those of LapqModel (parameters) in the
    optimisation of one layer.  scipy's minimizer is represented by the vectors it tries. *)
From Coq Require Import String Ascii List ZArith QArith Qabs Bool Arith.
From Verif Require Import Base Lists Names StructModel QuantModel RangeModel QzrModel PrepModel EmbModel ReplModel LapqModel.
Import ListNotations.
Local Open Scope string_scope.
Open Scope list_scope.

(** * The mode, lines 103-118 *)
Inductive imode := IClip (c : clipmode) | ILoss (p : nat).
Definition init_modes : list (string * imode) :=
  [("NONE", IClip CNone); ("AVG", IClip CAvg); ("LAPLACE", IClip CLaplace); ("GAUSS", IClip CGauss); ("L1", ILoss 1); ("L2", ILoss 2); ("L3", ILoss 3)].
(** str.upper, ASCII *)
Definition up (c : ascii) : ascii :=
  let n := nat_of_ascii c in if (Nat.leb 97 n && Nat.leb n 122)%bool then ascii_of_nat (n - 32) else c.
Fixpoint upper (s : string) : string := match s with "" => "" | String c s => String (up c) (upper s) end.
Definition init_mode_from_str (s : string) : res imode :=
  match dget init_modes (upper s) with Some m => Ok m | None => Raise ValueError end.

(** lines 89-92 [lp_loss]: the mean of |x - y|^p; [x.numel()] = 0 divides by zero (NaN in PyTorch: not modelled) *)
Definition lp_loss (p : nat) (x y : list Q) : Q :=
  qsum (map2 (fun a b => Qabs (a - b) ^ Z.of_nat p)%Q x y) / inject_Z (Z.of_nat (length x)).

(** lines 170-181 [get_input_for_layer]: the first inputs of all calls of the layer, concatenated; torch.cat of nothing and
    input[0] of a call without inputs are errors *)
Definition first_input (args : list (list Q)) : res (list Q) := match args with x :: _ => Ok x | [] => Raise IndexError end.
Definition get_input_for_layer (calls : list (list (list Q))) : res (list Q) :=
  do l <- mapM first_input calls;
  match l with [] => Raise RuntimeError | _ => Ok (concat l) end.

(** * One layer, lines 120-167 *)
(** range_linear.py:496-503, 844-860, 1366-1381 [set_linear_quant_param] of the wrappers *)
Definition w_requant (c : wcfg) (s : wst) : wst :=
  mkWst (s_float s) (requantize c (s_wscale s) (s_wzp s) (s_float s)) (s_shifted s) (s_wscale s) (s_wzp s) (s_oscale s) (s_ozp s).
Definition is_wparam (n : string) : bool := String.eqb n "w_scale" || String.eqb n "w_zero_point".
Definition w_set_base (c : wcfg) (s : wst) (kv : string * qpv) : res wst :=
  do cl <- named_clipping false c s;
  if dmem cl (fst kv) then (if String.eqb (fst kv) "output_clipping" then set_out_clip c (snd kv) s else set_wts_clip c (snd kv) s)
  else if dmem (named_params false c s) (fst kv) then fill (fst kv) (snd kv) s
  else Raise ValueError.
Definition w_set (c : wcfg) (s : wst) (kv : string * qpv) : res wst :=
  match c_kind c with
  | KAct => w_set_base c s kv
  | KParam =>
      if is_wparam (fst kv) then
        if c_save c then do s <- w_set_base c s kv; Ok (w_requant c s) else Raise UnsatisfiedRequirements
      else w_set_base c s kv
  | KEmb =>
      if dmem (wts_clipping false c s) (fst kv) then set_wts_clip c (snd kv) s
      else if is_wparam (fst kv) then
        if c_save c then do s <- fill (fst kv) (snd kv) s; Ok (w_requant c s) else Raise UnsatisfiedRequirements
      else Raise KeyError
  end.
(** lines 541-548, 1383-1390 [update_linear_quant_params] *)
Definition w_update (c : wcfg) (d : dict qpv) (s : wst) : res wst := foldM (w_set c) d s.

Section Layer.
(** [q_layer c s]: the output of the wrapper in the state [s] on the collected input; [y]: the output of the float layer *)
Variable q_layer : wcfg -> wst -> list Q.
Variable y : list Q.
Variable loss_fn : list Q -> list Q -> Q.
Definition target (c : wcfg) : list Q := if c_half c && (match c_kind c with KEmb => false | _ => true end) then map relu y else y.

(** lines 152-162 [feed_forward_fn]: the state afterwards and the loss *)
Definition layer_eval (sc : bool) (c : wcfg) (keys : list string) (s : wst) (x : list Q) : res (wst * Q) :=
  do d <- vec2dict sc keys x;
  do s <- w_update c d s;
  let s := w_forward c s in
  Ok (s, loss_fn (target c) (q_layer c s)).
(** lines 144-150 *)
Definition layer_params (sc : bool) (c : wcfg) (s : wst) : res (dict qpv) :=
  if sc then named_clipping true c s else Ok (map (fun p : string * Q => (fst p, QOne (snd p))) (named_params true c s)).
(** lines 144-167: the minimizer tries the vectors [xs]; its result is dropped *)
Definition optimize_for_layer (sc : bool) (c : wcfg) (s : wst) (xs : list (list Q)) : res wst :=
  do d <- layer_params sc c s;
  do kv <- dict2vec sc d;
  foldM (fun s x => do r <- layer_eval sc c (fst kv) s x; Ok (fst r)) xs s.
End Layer.

(** * The whole model, lines 184-269 *)
(** A module of the model being quantized: its class and whether it has children, its statistics and bits, the arguments with
    which it was replaced as they are recorded, and what is in its place now. *)
Record slot := mkSlot { sl_type : ptype; sl_kids : bool; sl_stats : option lstats; sl_q : qbits; sl_args : okw; sl_wrap : rwrap }.

(** range_linear.py:1540-1546 [is_post_train_quant_wrapper(., False)] *)
Definition int_wrapper (r : rwrap) : bool := match r with RParam _ _ _ _ _ _ | RNonParam _ | RFake _ _ _ | REmb _ _ _ _ _ _ _ => true | _ => false end.

Section Model.
Variable wts_params : option Z -> lqmode -> clipmode -> option Q -> bool -> res unit.
Variable emb_params : Z -> lqmode -> clipmode -> option Q -> bool -> res unit.
(** what looking at the first predecessor of a module gives at this time *)
Variable pred_wrapped : string -> res bool.
(** lines 220-223: the optimisation of a re-created wrapper: its settings stay *)
Variable opt_layer : string -> nat -> rwrap -> res unit.

Definition emptied (q : qbits) (r : rwrap) (w : okw) : okw :=
  match r with RParam _ _ _ _ _ _ | RNonParam _ | RFake _ _ _ => after_init (q_acts q) w | _ => w end.

(** lines 207-227 [init_layer_linear_quant_params] *)
Definition init_layer (z : pq) (name : string) (m : imode) (l : slot) : res slot :=
  match factory_of (sl_type l) with
  | None => Raise TypeError                (* no replacement function: None is called *)
  | Some f =>
      let w := match m with IClip c => with_clip c (sl_args l) | ILoss _ => sl_args l end in
      do r <- run_factory wts_params emb_params z f (sl_type l) (sl_kids l) (sl_stats l) (pred_wrapped name) (sl_q l) w;
      let w' := emptied (sl_q l) r w in
      if negb (int_wrapper r) then Ok (mkSlot (sl_type l) (sl_kids l) (sl_stats l) (sl_q l) w' (sl_wrap l))
      else
        do u <- (match m with ILoss p => opt_layer name p r | IClip _ => Ok tt end);
        Ok (mkSlot (sl_type l) (sl_kids l) (sl_stats l) (sl_q l) w' r)
  end.

(** lines 230-269 [init_linear_quant_params]; [order]: the names of the layers in topological order; the mode is one for all
    or a dictionary by name.  Names are taken as equal in both models (no DataParallel). *)
Inductive mode_arg := MAll (m : imode) | MDictOf (d : dict imode).
Definition mode_for (a : mode_arg) (n : string) : res imode :=
  match a with MAll m => Ok m | MDictOf d => match dget d n with Some m => Ok m | None => Raise KeyError end end.
Definition init_step (z : pq) (a : mode_arg) (m0 : dict slot) (ms : dict slot) (n : string) : res (dict slot) :=
  match dget m0 n, dget ms n with
  | Some l0, Some l =>
      if negb (int_wrapper (sl_wrap l0)) then Ok ms
      else do m <- mode_for a n; do l <- init_layer z n m l; Ok (dset ms n l)
  | _, _ => Raise KeyError
  end.
Definition init_model (z : pq) (a : mode_arg) (order : list string) (ms : dict slot) : res (dict slot) :=
  foldM (init_step z a ms) order ms.
End Model.
