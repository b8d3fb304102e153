(** Model of the constructors of the quantizers as far as settings, the recorded metadata and exceptions go, and of rebuilding a
    quantizer from the metadata in a checkpoint:
    distiller/quantization/quantizer.py:112-144 (Quantizer.__init__), distiller/quantization/range_linear.py:83-110
    ([_verify_enum_value], [verify_quant_mode], [verify_clip_mode]), 1605-1646, 1766-1772 (PostTrainLinearQuantizer.__init__),
    2269-2298 (QuantAwareTrainRangeLinearQuantizer.__init__), 2348-2363 (NCFQuantAwareTrainQuantizer.__init__),
    distiller/quantization/clipped_linear.py:84-89, 143-148, 173-178, 190 (WRPN, DoReFa, PACT), and
    distiller/apputils/checkpoint.py:221-225.

    The model given to a constructor, the matching of names (C35) and what the replacement functions make of the settings (C91) are
    not repeated here.  An object that the code only hands on (a float, an optimizer, ...) is a [VElse]. *)
From Coq Require Import String List ZArith Bool Arith.
From Verif Require Import Base RangeModel ReplModel.
Import ListNotations.
Local Open Scope string_scope.
Open Scope list_scope.

(** Python values: [VPair] is a ModuleQuantMode, [VQBits] a QBits, [VDict]/[VODict] a dict/an OrderedDict with string keys *)
Inductive pv :=
| VNone | VBool (b : bool) | VInt (z : Z) | VStr (s : string) | VElse (n : nat)
| VMode (m : lqmode) | VClip (c : clipmode) | VPair (acts wts : lqmode)
| VQBits (acts wts bias : pv)
| VDict (d : list (string * pv)) | VODict (d : list (string * pv)).
Definition env := dict pv.
Definition truth (v : pv) : bool :=
  match v with
  | VNone => false | VBool b => b | VInt z => negb (Z.eqb z 0) | VStr s => negb (String.eqb s "")
  | VDict d | VODict d => match d with [] => false | _ => true end
  | _ => true
  end.
Definition is_none (v : pv) : bool := match v with VNone => true | _ => false end.

(** A call with keyword arguments: the parameters after the model, with their defaults ([None]: required). *)
Definition sig := list (string * option pv).
Definition known (s : sig) (k : string) : bool := existsb (fun p : string * option pv => String.eqb k (fst p)) s.
Fixpoint fill (s : sig) (kw : env) : res env :=
  match s with
  | [] => Ok []
  | (k, d) :: r =>
      do v <- match dget kw k with
              | Some v => Ok v
              | None => match d with Some v => Ok v | None => Raise TypeError end
              end;
      do e <- fill r kw; Ok ((k, v) :: e)
  end.
Definition call (s : sig) (kw : env) : res env :=
  if forallb (fun p : string * pv => known s (fst p)) kw then fill s kw else Raise TypeError.
Definition arg (e : env) (k : string) : pv := match dget e k with Some v => v | None => VNone end.

Inductive cls := Base_ | Wrpn | Dorefa | Pact | Qat | Ncf | Ptq.
Record meta := mkMeta { m_type : cls; m_params : env }.
(** A quantizer: the optimizer, the default bits, the overrides it works with, whether it keeps float copies, and the other settings
    its functions use. *)
Record quant := mkQuant { q_type : cls; q_optim : pv; q_default : pv * pv * pv; q_over : env; q_copy : bool; q_set : env }.

(** dict.pop(k, default): the value, and the dictionary without k *)
Definition pop (d : env) (k : string) (dflt : pv) : pv * env :=
  (match dget d k with Some v => v | None => dflt end, filter (fun p : string * pv => negb (String.eqb k (fst p))) d).

(** quantizer.py:137-146: the bits of each override *)
Definition bits_entry (dq : pv * pv * pv) (v : pv) : res pv :=
  let '(da, dw, db) := dq in
  let go (mk : env -> pv) (d : env) :=
    if existsb (fun k => dmem d k) ["acts"; "wts"; "bias"] then Raise ValueError
    else
      let '(a, d) := pop d "bits_activations" da in
      let '(w, d) := pop d "bits_weights" dw in
      let '(b, d) := pop d "bits_bias" db in
      Ok (mk (dset d "bits" (VQBits a w b))) in
  match v with
  | VDict d => go VDict d
  | VODict d => go VODict d
  | _ => Raise AttributeError
  end.
Fixpoint bits_entries (dq : pv * pv * pv) (d : env) : res env :=
  match d with
  | [] => Ok []
  | (k, v) :: r => do v' <- bits_entry dq v; do r' <- bits_entries dq r; Ok ((k, v') :: r')
  end.

(** quantizer.py:112-144 [Quantizer.__init__].  The caller's dictionary of overrides is the one the quantizer works with: afterwards
    it is [q_over]. *)
Definition base_init (c : cls) (optim ba bw bb over : pv) (copy : bool) : res (quant * meta) :=
  do d <- match over with VNone => Ok [] | VODict d => Ok d | _ => Raise TypeError end;
  if copy && is_none optim then Raise ValueError
  else
    do d' <- bits_entries (ba, bw, bb) d;
    Ok (mkQuant c optim (ba, bw, bb) d' copy [],
        mkMeta c [("bits_activations", ba); ("bits_weights", bw); ("bits_bias", bb); ("overrides", VODict d)]).
Definition base_sig : sig :=
  [("optimizer", Some VNone); ("bits_activations", Some VNone); ("bits_weights", Some VNone); ("bits_bias", Some VNone);
   ("overrides", Some VNone); ("train_with_fp_copy", Some (VBool false))].
Definition base_new (kw : env) : res (quant * meta) :=
  do e <- call base_sig kw;
  base_init Base_ (arg e "optimizer") (arg e "bits_activations") (arg e "bits_weights") (arg e "bits_bias") (arg e "overrides")
    (truth (arg e "train_with_fp_copy")).

(** clipped_linear.py:84-89, 143-148, 173-178, 184, 190 *)
Definition clipped_sig : sig :=
  [("optimizer", None); ("bits_activations", Some (VInt 32)); ("bits_weights", Some (VInt 32)); ("bits_bias", Some VNone);
   ("overrides", Some VNone)].
Definition pact_sig : sig := clipped_sig ++ [("act_clip_init_val", Some (VInt 8)); ("act_clip_decay", Some VNone)].
Definition clipped_new (c : cls) (kw : env) : res (quant * meta) :=
  do e <- call (match c with Pact => pact_sig | _ => clipped_sig end) kw;
  do r <- base_init c (arg e "optimizer") (arg e "bits_activations") (arg e "bits_weights") (arg e "bits_bias") (arg e "overrides") true;
  Ok (mkQuant c (q_optim (fst r)) (q_default (fst r)) (q_over (fst r)) true
        (match c with
         | Pact => [("act_clip_init_val", arg e "act_clip_init_val"); ("act_clip_decay", arg e "act_clip_decay")]
         | _ => []
         end), snd r).

(** range_linear.py:83-110 *)
Definition as_mode (v : pv) : enumv lqmode := match v with VMode m => ENum m | VStr s => EStr s | VNone => ENone | _ => EElse end.
Definition as_clip (v : pv) : enumv clipmode := match v with VClip c => ENum c | VStr s => EStr s | VNone => ENone | _ => EElse end.
Definition item (d : env) (k : string) : res pv := match dget d k with Some v => Ok v | None => Raise KeyError end.
Definition quant_mode (v : pv) : res (lqmode * lqmode) :=
  match v with
  | VPair a w => Ok (a, w)
  | VDict d | VODict d =>
      do a <- item d "activations"; do a <- verify_enum mode_named (as_mode a);
      do w <- item d "weights"; do w <- verify_enum mode_named (as_mode w);
      Ok (a, w)
  | _ => do m <- verify_enum mode_named (as_mode v); Ok (m, m)
  end.
(** [_enum_to_str] of a member *)
Definition mode_name (m : lqmode) : string :=
  match m with SYM => "SYMMETRIC" | SYMR => "SYMMETRIC_RESTRICTED" | ASU => "ASYMMETRIC_UNSIGNED" | ASS => "ASYMMETRIC_SIGNED" end.
Definition clip_name (c : clipmode) : string :=
  match c with CNone => "NONE" | CAvg => "AVG" | CNStd => "N_STD" | CGauss => "GAUSS" | CLaplace => "LAPLACE" end.
Definition mode_dict (m : lqmode * lqmode) : pv :=
  VDict [("activations", VStr (mode_name (fst m))); ("weights", VStr (mode_name (snd m)))].

(** range_linear.py:2270-2298, 2349-2363 *)
Definition ncf_sig : sig :=
  [("optimizer", Some VNone); ("bits_activations", Some (VInt 32)); ("bits_weights", Some (VInt 32)); ("bits_bias", Some (VInt 32));
   ("overrides", Some VNone); ("mode", Some (VMode SYM)); ("ema_decay", Some (VElse 0)); ("per_channel_wts", Some (VBool false))].
Definition qat_sig : sig := ncf_sig ++ [("quantize_inputs", Some (VBool true)); ("num_bits_inputs", Some VNone)].
Definition qat_new (c : cls) (kw : env) : res (quant * meta) :=
  do e <- call (match c with Ncf => ncf_sig | _ => qat_sig end) kw;
  let qin := match c with Ncf => VBool false | _ => arg e "quantize_inputs" end in
  do r <- base_init c (arg e "optimizer") (arg e "bits_activations") (arg e "bits_weights") (arg e "bits_bias") (arg e "overrides") true;
  do m <- quant_mode (arg e "mode");
  Ok (mkQuant c (q_optim (fst r)) (q_default (fst r)) (q_over (fst r)) true
        [("mode", VPair (fst m) (snd m)); ("ema_decay", arg e "ema_decay"); ("per_channel_wts", arg e "per_channel_wts");
         ("quantize_inputs", qin);
         ("num_bits_inputs", if is_none (arg e "num_bits_inputs") then arg e "bits_activations" else arg e "num_bits_inputs")],
      mkMeta c (m_params (snd r) ++
        [("mode", mode_dict m); ("ema_decay", arg e "ema_decay"); ("per_channel_wts", arg e "per_channel_wts")] ++
        match c with Ncf => [] | _ => [("quantize_inputs", qin)] end)).

(** range_linear.py:1605-1646, 1766-1772.  [files]: what the files hold (read as YAML). *)
Definition ptq_sig : sig :=
  [("bits_activations", Some (VInt 8)); ("bits_parameters", Some (VInt 8)); ("bits_accum", Some (VInt 32)); ("overrides", Some VNone);
   ("mode", Some (VMode SYM)); ("clip_acts", Some (VClip CNone)); ("per_channel_wts", Some (VBool false));
   ("model_activation_stats", Some VNone); ("fp16", Some (VBool false)); ("clip_n_stds", Some VNone);
   ("clip_half_range", Some (VBool false)); ("scale_approx_mult_bits", Some VNone); ("inputs_quant_auto_fallback", Some (VBool true));
   ("fpq_module", Some VNone); ("save_fp_weights", Some (VBool false)); ("also_clip_weights", Some (VBool false))].
(** str(fpq_module) in ('16', 'None') *)
Definition fpq_16 (v : pv) : bool :=
  match v with VNone => true | VInt z => Z.eqb z 16 | VStr s => String.eqb s "16" || String.eqb s "None" | _ => false end.
Definition stats_arg (files : string -> option pv) (v : pv) : res pv :=
  match v with
  | VNone => Ok VNone
  | VStr s => match files s with Some d => Ok d | None => Raise ValueError end
  | VDict _ | VODict _ => Ok v
  | _ => Raise TypeError
  end.
Definition ptq_new (files : string -> option pv) (kw : env) : res (quant * meta) :=
  do e <- call ptq_sig kw;
  do r <- base_init Ptq VNone (arg e "bits_activations") (arg e "bits_parameters") (arg e "bits_accum") (arg e "overrides") false;
  if truth (arg e "fp16") && negb (fpq_16 (arg e "fpq_module")) then Raise ValueError
  else
    do m <- quant_mode (arg e "mode");
    do c <- verify_enum clip_named (as_clip (arg e "clip_acts"));
    if (match c with CNStd => true | _ => false end) && is_none (arg e "clip_n_stds") then Raise ValueError
    else
      do st <- stats_arg files (arg e "model_activation_stats");
      Ok (mkQuant Ptq VNone (q_default (fst r)) (q_over (fst r)) false
            [("mode", VPair (fst m) (snd m)); ("clip_acts", VClip c); ("clip_n_stds", arg e "clip_n_stds");
             ("clip_half_range", arg e "clip_half_range"); ("per_channel_wts", arg e "per_channel_wts");
             ("scale_approx_mult_bits", arg e "scale_approx_mult_bits");
             ("inputs_quant_auto_fallback", arg e "inputs_quant_auto_fallback"); ("fpq_module", arg e "fpq_module");
             ("model_activation_stats", if truth st then st else VDict []);
             ("fp16", arg e "fp16"); ("save_fp_weights", arg e "save_fp_weights"); ("also_clip_weights", arg e "also_clip_weights")],
          mkMeta Ptq
            [("bits_activations", arg e "bits_activations"); ("bits_parameters", arg e "bits_parameters"); ("bits_accum", arg e "bits_accum");
             ("mode", mode_dict m); ("clip_acts", VStr (clip_name c)); ("clip_n_stds", arg e "clip_n_stds");
             ("clip_half_range", arg e "clip_half_range"); ("per_channel_wts", arg e "per_channel_wts");
             ("scale_approx_mult_bits", arg e "scale_approx_mult_bits");
             ("inputs_quant_auto_fallback", arg e "inputs_quant_auto_fallback"); ("fpq_module", arg e "fpq_module");
             ("model_activation_stats", st); ("overrides", arg e "overrides")]).

Definition new (files : string -> option pv) (c : cls) (kw : env) : res (quant * meta) :=
  match c with
  | Base_ => base_new kw
  | Wrpn | Dorefa | Pact => clipped_new c kw
  | Qat | Ncf => qat_new c kw
  | Ptq => ptq_new files kw
  end.

(** checkpoint.py:221-225: the quantizer made from the metadata; [dummy]: whether prepare_model had recorded a dummy input *)
Definition rebuild (files : string -> option pv) (md : meta) (dummy : bool) : res (quant * meta) :=
  do r <- new files (m_type md) (m_params md);
  if dummy then Ok r else Raise KeyError.
