(** Model of the numerical search of quantization parameters (distiller/quantization/ptq_coordinate_search.py) and of the
    interface to the quantization parameters of a whole model that it uses (PostTrainLinearQuantizer in range_linear.py),
    on top of the model of the wrappers in RangeModel.

    Weights are quantized per tensor and scale approximation is off (a per-channel layer refuses every update: C32).
    A wrapper's forward is represented by what it does to the wrapper's own state (the one-time shift of the integer
    weights); the evaluation function of the user is an arbitrary function of the state of all wrappers after that. The
    accumulator scale and the quantized bias are functions of that state (C32_set_refreshes_accumulator). Modules that
    are not wrappers have no state here. scipy's minimizers are represented by the sequence of calls they make. *)
From Coq Require Import String Ascii List ZArith QArith Qabs Bool Arith.
From Verif Require Import Base Lists Names StructModel QuantModel RangeModel.
Import ListNotations.
Local Open Scope string_scope.
Open Scope list_scope.

(** * Strings *)
Fixpoint endswith (suf s : string) : bool :=
  String.eqb suf s || match s with EmptyString => false | String _ s' => endswith suf s' end.
Fixpoint stake (n : nat) (s : string) : string :=
  match n, s with
  | S n', String c s' => String c (stake n' s')
  | _, _ => EmptyString
  end.
(** [k[:-4]] *)
Definition chop4 (k : string) : string := stake (String.length k - 4) k.

(** * The values of a parameter dictionary: a number or a (min, max) pair *)
Inductive qpv := QOne (v : Q) | QPair (a b : Q).

(** ptq_coordinate_search.py:53-71 [quant_params_dict2vec]; a pair has no [item()] *)
Fixpoint dict2vec (sc : bool) (d : dict qpv) : res (list string * list Q) :=
  match d with
  | [] => Ok ([], [])
  | (k, v) :: r =>
      match v with
      | QPair a b =>
          if sc then do kv <- dict2vec sc r; Ok ((k ++ "_min")%string :: (k ++ "_max")%string :: fst kv, a :: b :: snd kv)
          else Raise AttributeError
      | QOne x => do kv <- dict2vec sc r; Ok (k :: fst kv, x :: snd kv)
      end
  end.

(** lines 73-86 [quant_params_vec2dict] *)
Definition sorted2 (a b : Q) : qpv := if Qltb b a then QPair b a else QPair a b.
Definition at_index (vals : list Q) (i : nat) : res Q := match nth_error vals i with Some v => Ok v | None => Raise IndexError end.
Fixpoint vec2dict_from (sc : bool) (vals : list Q) (idx : nat) (keys : list string) (out : dict qpv) : res (dict qpv) :=
  match keys with
  | [] => Ok out
  | k :: r =>
      if sc && endswith "_min" k then
        do a <- at_index vals idx;
        do b <- at_index vals (idx + 1);
        vec2dict_from sc vals (S idx) r (dset out (chop4 k) (sorted2 a b))
      else if sc && endswith "_max" k then vec2dict_from sc vals (S idx) r out
      else do a <- at_index vals idx; vec2dict_from sc vals (S idx) r (dset out k (QOne (Qabs a)))
  end.
Definition vec2dict (sc : bool) (keys : list string) (vals : list Q) : res (dict qpv) := vec2dict_from sc vals 0 keys [].

(** * Wrappers *)
(** RangeLinearQuantParamLayerWrapper; the other subclasses of RangeLinearQuantWrapper; RangeLinearEmbeddingWrapper *)
Inductive wkind := KParam | KAct | KEmb.
Record wcfg := mkWcfg {
  c_kind : wkind;
  c_acts : option Z;           (* output_quant_settings.num_bits *)
  c_wts : Z;                   (* wts_quant_settings.num_bits *)
  c_ma : lqmode;               (* mode.activations *)
  c_mw : lqmode;               (* mode.weights *)
  c_half : bool;               (* clip_half_range *)
  c_save : bool;               (* save_fp_weights *)
  c_preset : bool }.           (* preset_act_stats *)
Record wst := mkWst {
  s_float : list Q;            (* float_weight *)
  s_weight : list Q;           (* the stored weight *)
  s_shifted : bool;            (* is_simulated_quant_weight_shifted *)
  s_wscale : Q; s_wzp : Q;
  s_oscale : Q; s_ozp : Q }.
Definition model := dict (wcfg * wst).

Definition asym (m : lqmode) : bool := negb (is_sym (PM m)).
Definition acts_quantized (c : wcfg) : bool := match c_acts c with Some b => negb (Z.eqb b 0) | None => false end.

(** range_linear.py:489-494, 837-842, 1361-1364 [named_linear_quant_params] *)
Definition out_params (filter : bool) (c : wcfg) (s : wst) : dict Q :=
  if (match c_acts c with Some _ => true | None => false end) && c_preset c then
    ("output_scale", s_oscale s) ::
    (if negb filter || (asym (c_ma c) && negb (c_half c)) then [("output_zero_point", s_ozp s)] else [])
  else [].
Definition wts_params (filter : bool) (c : wcfg) (s : wst) : dict Q :=
  ("w_scale", s_wscale s) :: (if negb filter || asym (c_mw c) then [("w_zero_point", s_wzp s)] else []).
Definition named_params (filter : bool) (c : wcfg) (s : wst) : dict Q :=
  match c_kind c with
  | KEmb => wts_params filter c s
  | KParam => (if c_save c then wts_params filter c s else []) ++ out_params filter c s
  | KAct => out_params filter c s
  end.

(** lines 505-519, 535-539, 862-875, 890-898, 1392-1405, 1420-1424 [named_clipping] *)
Definition clip_pair (filter one : bool) (p : Q * Q) : qpv := if filter && one then QOne (snd p) else QPair (fst p) (snd p).
Definition out_clipping (filter : bool) (c : wcfg) (s : wst) : res (dict qpv) :=
  match c_acts c with
  | Some b =>
      if Z.eqb b 0 || negb (c_preset c) then Raise UnsatisfiedRequirements
      else Ok [("output_clipping", clip_pair filter (is_sym (PM (c_ma c)) || c_half c) (get_clipping_values (s_oscale s) (s_ozp s) b (PM (c_ma c))))]
  | None => Raise UnsatisfiedRequirements
  end.
Definition wts_clipping (filter : bool) (c : wcfg) (s : wst) : dict qpv :=
  [("weight_clipping", clip_pair filter (is_sym (PM (c_mw c))) (get_clipping_values (s_wscale s) (s_wzp s) (c_wts c) (PM (c_mw c))))].
Definition named_clipping (filter : bool) (c : wcfg) (s : wst) : res (dict qpv) :=
  match c_kind c with
  | KEmb => Ok (wts_clipping filter c s)
  | KParam => Ok ((match out_clipping filter c s with Ok l => l | Raise _ => [] end) ++ wts_clipping filter c s)
  | KAct => out_clipping filter c s
  end.

(** lines 521-533: the output_clipping setter *)
Definition clipval_of (v : qpv) : clipval := match v with QOne x => CScalar x | QPair a b => CPair a b end.
Definition set_out_clip (c : wcfg) (v : qpv) (s : wst) : res wst :=
  match c_acts c with
  | Some b =>
      do p <- set_output_clipping b (PM (c_ma c)) (c_half c) (clipval_of v);
      Ok (mkWst (s_float s) (s_weight s) (s_shifted s) (s_wscale s) (s_wzp s) (fst p) (snd p))
  | None => Raise UnsatisfiedRequirements
  end.
(** lines 844-860, 1366-1381: the weights quantized again from the saved float weights; de-quantized at once in a layer whose
    activations are not quantized *)
Definition requantize (c : wcfg) (scale zp : Q) (w : list Q) : list Q :=
  let r := mode_range (c_wts c) (PM (c_mw c)) in
  let q := map (fun x => linear_quantize_clamp x scale zp (Zq (fst r)) (Zq (snd r))) w in
  match c_kind c, c_acts c with
  | KParam, None => map (fun x => linear_dequantize x scale zp) q
  | _, _ => q
  end.
(** lines 877-888, 1407-1418: the weight_clipping setter *)
Definition set_wts_clip (c : wcfg) (v : qpv) (s : wst) : res wst :=
  let m := PM (c_mw c) in
  do p <- match c_kind c with
          | KEmb => do r <- check_clipping_val (clipval_of v) m false;
                    do p <- (if is_sym m then sym_params (c_wts c) [snd r] false
                             else asym_params (c_wts c) [fst r] [snd r] true (mode_is m ASS));
                    first_param p
          | _ => set_weight_clipping (c_wts c) m (clipval_of v)
          end;
  if negb (c_save c) then Raise UnsatisfiedRequirements
  else Ok (mkWst (s_float s) (requantize c (fst p) (snd p) (s_float s)) (s_shifted s) (fst p) (snd p) (s_oscale s) (s_ozp s)).

(** * The quantizer's view of a model, lines 1805-1885 *)
Definition full_name (m p : string) : string := (m ++ "." ++ p)%string.
Definition q_params (filter : bool) (ms : model) : dict Q :=
  flat_map (fun e : string * (wcfg * wst) => let '(n, (c, s)) := e in map (fun p : string * Q => (full_name n (fst p), snd p)) (named_params filter c s)) ms.
Fixpoint q_clipping (filter : bool) (ms : model) : res (dict qpv) :=
  match ms with
  | [] => Ok []
  | (n, (c, s)) :: r =>
      do l <- named_clipping filter c s;
      do l' <- q_clipping filter r;
      Ok (map (fun p : string * qpv => (full_name n (fst p), snd p)) l ++ l')
  end.

(** tensor.fill_(v): a pair is not a number *)
Definition fill (p : string) (v : qpv) (s : wst) : res wst :=
  match v with
  | QPair _ _ => Raise TypeError
  | QOne x =>
      if String.eqb p "w_scale" then Ok (mkWst (s_float s) (s_weight s) (s_shifted s) x (s_wzp s) (s_oscale s) (s_ozp s))
      else if String.eqb p "w_zero_point" then Ok (mkWst (s_float s) (s_weight s) (s_shifted s) (s_wscale s) x (s_oscale s) (s_ozp s))
      else if String.eqb p "output_scale" then Ok (mkWst (s_float s) (s_weight s) (s_shifted s) (s_wscale s) (s_wzp s) x (s_ozp s))
      else if String.eqb p "output_zero_point" then Ok (mkWst (s_float s) (s_weight s) (s_shifted s) (s_wscale s) (s_wzp s) (s_oscale s) x)
      else Raise KeyError
  end.
(** lines 1826-1840, 1852-1856, 1864-1876 [set_linear_quant_param] of the quantizer, with [linear_quant_params] the
    unfiltered parameters of the model *)
Definition q_set (ms : model) (kv : string * qpv) : res model :=
  let mn := param_name_2_module_name (fst kv) in
  let pn := last (split_dot (fst kv)) "" in
  match dget ms mn with
  | None => Raise KeyError
  | Some (c, s) =>
      do cl <- named_clipping false c s;
      if dmem cl pn then
        do s' <- (if String.eqb pn "output_clipping" then set_out_clip c (snd kv) s else set_wts_clip c (snd kv) s);
        Ok (dset ms mn (c, s'))
      else if dmem (q_params false ms) (fst kv) then
        do s' <- fill pn (snd kv) s;
        Ok (dset ms mn (c, s'))
      else Raise KeyError
  end.
(** lines 1878-1885 *)
Definition q_update (d : dict qpv) (ms : model) : res model := foldM q_set d ms.

(** * Evaluation *)
(** range_linear.py:947-953 of quantized_forward: the zero point is added to the integer weights once *)
Definition w_forward (c : wcfg) (s : wst) : wst :=
  match c_kind c, c_acts c with
  | KParam, Some _ =>
      if asym (c_mw c) && negb (s_shifted s) then
        mkWst (s_float s) (map (fun x => x + s_wzp s) (s_weight s)) true (s_wscale s) (s_wzp s) (s_oscale s) (s_ozp s)
      else s
  | _, _ => s
  end.
Definition m_forward (ms : model) : model := map (fun e : string * (wcfg * wst) => (fst e, (fst (snd e), w_forward (fst (snd e)) (snd (snd e))))) ms.

(** ptq_coordinate_search.py:319-335 [validate_quantization_settings] *)
Definition validate1 (c : wcfg) : res unit :=
  if (match c_kind c with KEmb => false | _ => true end) && acts_quantized c && asym (c_ma c) && negb (c_half c) then Raise ValueError
  else if (match c_kind c with KAct => false | _ => true end) && asym (c_mw c) then Raise ValueError
  else Ok tt.
Definition validate (sc : bool) (ms : model) : res unit :=
  if sc then Ok tt else foldM (fun _ (e : string * (wcfg * wst)) => validate1 (fst (snd e))) ms tt.

(** * The search, lines 407-473, from the initialised model on *)
Section Search.
Variable eval : model -> Q.              (* eval_fn, after the forward passes it makes *)

Inductive call := CEval (x : list Q) | CCallback (x : list Q).
Record sst := mkSst { sr_model : model; sr_score : Q; sr_best : dict qpv }.

(** lines 427-438 [feed_forward_fn] *)
Definition feed_forward (sc : bool) (keys : list string) (x : list Q) (ms : model) : res (model * Q) :=
  do d <- vec2dict sc keys x;
  do ms' <- q_update d ms;
  let ms' := m_forward ms' in
  Ok (ms', eval ms').
(** lines 440-446 [callback] *)
Definition search_step (sc : bool) (keys : list string) (st : sst) (c : call) : res sst :=
  match c with
  | CEval x => do r <- feed_forward sc keys x (sr_model st); Ok (mkSst (fst r) (sr_score st) (sr_best st))
  | CCallback x =>
      do r <- feed_forward sc keys x (sr_model st);
      if Qltb (snd r) (sr_score st) then do d <- vec2dict sc keys x; Ok (mkSst (fst r) (snd r) d)
      else Ok (mkSst (fst r) (sr_score st) (sr_best st))
  end.
(** lines 421-422: what is searched *)
Definition search_params (sc : bool) (ms : model) : res (dict qpv) :=
  if sc then q_clipping true ms else Ok (map (fun p : string * Q => (fst p, QOne (snd p))) (q_params true ms)).
(** lines 409-413, 421-422: the state at the start of the search and the vector handed to the minimizer *)
Definition search_start (sc : bool) (ms : model) : res (sst * list string * list Q) :=
  do _ <- validate sc ms;
  let ms := m_forward ms in
  let best := map (fun p : string * Q => (fst p, QOne (snd p))) (q_params false ms) in
  do d <- search_params sc ms;
  do kv <- dict2vec sc d;
  Ok (mkSst ms (eval ms) best, fst kv, snd kv).
(** The minimizer called with the initial vector makes the calls [calls]; lines 470-473: the model and the best parameters
    are returned *)
Definition search (sc : bool) (ms : model) (calls : list call) : res sst :=
  do s <- search_start sc ms;
  let '(st, keys, _) := s in
  foldM (search_step sc keys) calls st.
End Search.

(** lines 297-316 [cmdline_args_to_dict] *)
Definition cmdline_args_to_dict {V} (args : dict V) : res (dict V) :=
  let d := map (fun p : string * V => (sdrop 5 (fst p), snd p)) (filter (fun p : string * V => startswith "lapq_" (fst p)) args) in
  if dmem d "eval_size" then
    let d := filter (fun p : string * V => negb (String.eqb (fst p) "eval_size")) d in
    if dmem d "eval_memoize_dataloader" then Ok (filter (fun p : string * V => negb (String.eqb (fst p) "eval_memoize_dataloader")) d)
    else Raise KeyError
  else Raise KeyError.
