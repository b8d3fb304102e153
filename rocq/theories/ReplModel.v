(** Model of the replacement functions of PostTrainLinearQuantizer (distiller/quantization/range_linear.py:1648-1763) with the
    constructors of the wrappers as far as settings and exceptions go, of the call in quantizer.py:289-332, and of the
    construction from command-line arguments (range_linear.py:1888-1926).

    Not modelled: keys of input overrides that are not accepted, empty statistics dictionaries, and the tensors in the wrappers
    (C31, C53, C89, C90). *)
From Coq Require Import String List ZArith QArith Qabs Bool Arith.
From Verif Require Import Base Names StructModel QuantModel RangeModel QzrModel PrepModel EmbModel.
Import ListNotations.
Local Open Scope string_scope.
Open Scope list_scope.

(** a value given where a member of an enumeration is expected: a member, a string, None, anything else *)
Inductive enumv (A : Type) := ENum (a : A) | EStr (s : string) | ENone | EElse.
Arguments ENum {A} a. Arguments EStr {A} s. Arguments ENone {A}. Arguments EElse {A}.

(** range_linear.py:71-80 and q_utils.py: names of the members *)
Definition clip_named (s : string) : option clipmode :=
  if String.eqb s "NONE" then Some CNone else if String.eqb s "AVG" then Some CAvg else if String.eqb s "N_STD" then Some CNStd
  else if String.eqb s "GAUSS" then Some CGauss else if String.eqb s "LAPLACE" then Some CLaplace else None.
Definition mode_named (s : string) : option lqmode :=
  if String.eqb s "SYMMETRIC" then Some SYM else if String.eqb s "ASYMMETRIC_UNSIGNED" then Some ASU
  else if String.eqb s "ASYMMETRIC_SIGNED" then Some ASS else if String.eqb s "SYMMETRIC_RESTRICTED" then Some SYMR else None.
(** range_linear.py:83-94 [_verify_enum_value] *)
Definition verify_enum {A} (named : string -> option A) (v : enumv A) : res A :=
  match v with
  | ENum a => Ok a
  | EStr s => match named s with Some a => Ok a | None => Raise ValueError end
  | _ => Raise TypeError
  end.
(** a mode argument: one value for both, a dictionary, a ModuleQuantMode *)
Inductive modev := MOne (v : enumv lqmode) | MDict (acts wts : enumv lqmode) | MPair (acts wts : lqmode).
(** range_linear.py:97-106 [verify_quant_mode] *)
Definition verify_mode (v : modev) : res (lqmode * lqmode) :=
  match v with
  | MPair a w => Ok (a, w)
  | MDict a w => do a <- verify_enum mode_named a; do w <- verify_enum mode_named w; Ok (a, w)
  | MOne v => do m <- verify_enum mode_named v; Ok (m, m)
  end.
Definition falsy_enum {A} (v : enumv A) : bool := match v with ENone => true | EStr "" => true | _ => false end.

(** fpq_module: None, an integer or a string *)
Inductive fpqv := FNone | FInt (z : Z) | FStr (s : string).
Definition fpq_true (v : fpqv) : bool := match v with FNone => false | FInt z => negb (Z.eqb z 0) | FStr s => negb (String.eqb s "") end.
(** the precision tables, range_linear.py:1292-1297 and 1470-1472, indexed by str(v) *)
Definition fpq_dtype (v : fpqv) : res dtype :=
  match v with
  | FNone => Raise KeyError
  | FInt z => if Z.eqb z 16 then Ok F16 else if Z.eqb z 32 then Ok F32 else if Z.eqb z 64 then Ok F64 else Raise KeyError
  | FStr s => precision s
  end.
(** range_linear.py:1648-1653 [_check_fp16_arg] *)
Definition check_fp16 (fp16 : bool) (v : fpqv) : fpqv := if fp16 then (if fpq_true v then v else FInt 16) else v.

(** The override arguments of a layer, without the bit widths *)
Record okw := mkOkw {
  w_perch : option bool; w_mode : option modev; w_fp16 : option bool; w_approx : option (option Z);
  w_clip : option (enumv clipmode); w_nstds : option (option Q); w_half : option bool;
  w_inputs : option (list (nat * override)); w_auto : option bool; w_fpq : option fpqv; w_fake : option bool;
  w_ident : option bool; w_qin : option bool; w_other : list string }.
Definition has {A} (o : option A) (k : string) : list string := match o with Some _ => [k] | None => [] end.
Definition wkeys (w : okw) : list string :=
  has (w_perch w) "per_channel_wts" ++ has (w_mode w) "mode" ++ has (w_fp16 w) "fp16" ++
  has (w_approx w) "scale_approx_mult_bits" ++ has (w_clip w) "clip_acts" ++ has (w_nstds w) "clip_n_stds" ++
  has (w_half w) "clip_half_range" ++ has (w_inputs w) "input_overrides" ++ has (w_auto w) "inputs_quant_auto_fallback" ++
  has (w_fpq w) "fpq_module" ++ has (w_fake w) "fake" ++ has (w_ident w) "make_identity" ++ has (w_qin w) "quantize_inputs" ++ w_other w.

(** the replacement function of a class, range_linear.py:1773-1803: the four functions *)
Inductive factory := FParam | FNonParam | FEmb | FFake.
Definition factory_of (t : ptype) : option factory :=
  match t with
  | PtDropout | PtIdentity => None
  | PtParam => Some FParam
  | PtEltwise | PtMatmul => Some FNonParam
  | PtEmb => Some FEmb
  | _ => Some FFake
  end.
(** names of their parameters (utils.py:726-743 [filter_kwargs]), but for those passed by position: giving these is a
    TypeError as well *)
Definition params_of (f : factory) : list string :=
  match f with
  | FParam => ["per_channel_wts"; "mode"; "fp16"; "scale_approx_mult_bits"; "clip_acts"; "clip_n_stds"; "clip_half_range";
               "input_overrides"; "fpq_module"; "fake"]
  | FNonParam => ["fp16"; "scale_approx_mult_bits"; "clip_acts"; "clip_n_stds"; "clip_half_range"; "input_overrides";
                  "inputs_quant_auto_fallback"; "fpq_module"; "fake"]
  | FEmb => ["fp16"; "fpq_module"; "clip_acts"; "clip_n_stds"; "clip_half_range"]
  | FFake => ["fp16"; "clip_acts"; "clip_n_stds"; "clip_half_range"; "scale_approx_mult_bits"; "input_overrides";
              "inputs_quant_auto_fallback"; "fpq_module"; "fake"; "make_identity"; "quantize_inputs"]
  end.
Definition mem_str (l : list string) (s : string) : bool := existsb (String.eqb s) l.

(** The quantizer: constructor arguments (after verification), range_linear.py:1613-1646, 1765-1771 *)
Record pq := mkPq {
  z_mode : lqmode * lqmode; z_clip : clipmode; z_nstds : option Q; z_half : bool; z_approx : option Z; z_perch : bool;
  z_fp16 : bool; z_fpq : fpqv; z_auto : bool; z_accum : Z; z_save : bool; z_also : bool }.
(** the checks of the constructor *)
Definition pq_check (clip : clipmode) (n_stds : option Q) (fp16 : bool) (fpq : fpqv) : res unit :=
  if fp16 && negb (match fpq with FNone => true | FInt z => Z.eqb z 16 | FStr s => String.eqb s "16" || String.eqb s "None" end)
  then Raise ValueError
  else match clip, n_stds with CNStd, None => Raise ValueError | _, _ => Ok tt end.

(** settings of a wrapper *)
Record wset := mkWset {
  a_acts : option Z; a_mode : lqmode * lqmode; a_clip : clipmode; a_nstds : option Q; a_half : bool; a_approx : option Z;
  a_inputs : list (nat * override); a_auto : bool; a_stats : option lstats }.
Inductive rwrap :=
| RSame                                                                   (* the module itself *)
| RIdent
| RFp (d : dtype) (convert_input : bool)
| RParam (s : wset) (wts : Z) (accum : Z) (per_channel save also : bool)  (* RangeLinearQuantParamLayerWrapper *)
| RNonParam (s : wset)                                                    (* the four wrappers without weights *)
| RFake (s : wset) (d : dtype) (quantize_inputs : bool)
| REmb (bits : Z) (mode : lqmode) (clip : enumv clipmode) (n_stds : option Q) (half save : bool) (st : option lstats).

Fixpoint nget {A} (l : list (nat * A)) (i : nat) : option A :=
  match l with [] => None | (j, v) :: l => if Nat.eqb i j then Some v else nget l i end.
(** range_linear.py:396-476 [RangeLinearQuantWrapper.__init__]: what can fail (the parameters are C53) *)
Definition base_init (s : wset) : res unit :=
  match a_acts s with
  | None => Ok tt
  | Some bits =>
      match a_stats s with
      | None => Ok tt
      | Some ls =>
          let out := mkQset bits (PM (fst (a_mode s))) (a_clip s) (a_nstds s) (a_half s) in
          do u <- mapM (fun e : nat * stats => preset_input_md out (nget (a_inputs s) (fst e)) (a_approx s) (snd e)) (ls_inputs ls);
          do p <- params_from_stats (ls_output ls) bits (PM (fst (a_mode s))) (a_clip s) (a_nstds s) (a_half s) (a_approx s);
          Ok tt
      end
  end.
Definition is_aciq (c : clipmode) : bool := match c with CGauss | CLaplace => true | _ => false end.
(** range_linear.py:1455-1461: mean, std and b of the output replaced by those of the input *)
Definition relu_stats (st : option lstats) : res (option lstats) :=
  match st with
  | None => Raise TypeError
  | Some ls => match nget (ls_inputs ls) 0 with
               | None => Raise KeyError
               | Some i => let o := ls_output ls in
                           Ok (Some (mkLs (ls_inputs ls) (mkStats (st_min o) (st_max o) (st_avg_min o) (st_avg_max o) (st_mean i) (st_std i) (st_b i))))
               end
  end.
(** range_linear.py:1452-1473 [RangeLinearFakeQuantWrapper.__init__] *)
Definition fake_init (relu : bool) (s : wset) (fpq : fpqv) (qin : bool) : res rwrap :=
  do st <- (if relu && is_aciq (a_clip s) then relu_stats (a_stats s) else Ok (a_stats s));
  let s := mkWset (a_acts s) (a_mode s) (a_clip s) (a_nstds s) (relu || a_half s) (a_approx s) (a_inputs s) (a_auto s) st in
  do u <- base_init s;
  do d <- (if fpq_true fpq then fpq_dtype fpq else Ok F32);
  Ok (RFake s d qin).

Section Weights.
(** what [_get_quant_params_from_tensor] on the weights can raise (C45, C53), by the settings *)
Variable wts_params : option Z -> lqmode -> clipmode -> option Q -> bool -> res unit.
(** the same for the tensor of an embedding; a clipping mode that is not a member of the enumeration is looked up in a
    dictionary (KeyError) *)
Variable emb_params : Z -> lqmode -> clipmode -> option Q -> bool -> res unit.

(** range_linear.py:744-792 *)
Definition param_init (s : wset) (wts : option Z) (accum : Z) (perch save also : bool) : res rwrap :=
  do u <- base_init s;
  match wts with
  | None => Raise TypeError
  | Some b =>
      let c := if also then (a_clip s, a_nstds s) else (CNone, None) in
      do u <- wts_params (Some b) (snd (a_mode s)) (fst c) (snd c) perch;
      Ok (RParam s b accum perch save also)
  end.
(** range_linear.py:1127-1234: without statistics a NoStatsError, which the factory turns into keeping the module; matmul
    does not need statistics *)
Definition non_param_init (t : ptype) (s : wset) : res rwrap :=
  match t, a_stats s with
  | PtEltwise, None => Ok RSame
  | _, _ => do u <- base_init s; Ok (RNonParam s)
  end.
(** range_linear.py:1321-1359; the clipping mode is used unverified: a string never equals a member, so that with
    statistics it means no clipping, and without it is a KeyError *)
Definition emb_wrap (bits : option Z) (mode : lqmode) (clip : enumv clipmode) (n : option Q) (half save : bool) (st : option lstats) : res rwrap :=
  match bits with
  | None => Raise TypeError
  | Some b =>
      do u <- (match st with
               | Some ls => let c := match clip with ENum c => c | _ => CNone end in
                            do p <- params_from_stats (ls_output ls) b (PM mode) c n half None; Ok tt
               | None => match clip with ENum c => emb_params b mode c n half | _ => Raise KeyError end
               end);
      Ok (REmb b mode clip n half save st)
  end.

Definition acts_only (q : qbits) : bool := match q_acts q, q_wts q with Some _, None => true | _, _ => false end.

(** range_linear.py:1655-1763, called by quantizer.py:316-323.  [st]: the statistics; [pred_wrapped]: what looking at the
    first predecessor gives (is it a RangeLinearQuantWrapper). *)
Definition run_factory (z : pq) (f : factory) (t : ptype) (kids : bool) (st : option lstats) (pred_wrapped : res bool) (q : qbits) (w : okw) : res rwrap :=
  if existsb (fun k => negb (mem_str (params_of f) k)) (wkeys w) then Raise TypeError
  else
    let fpq := check_fp16 (dflt (w_fp16 w) (z_fp16 z)) (dflt (w_fpq w) (z_fpq z)) in
    let approx := dflt (w_approx w) (z_approx z) in
    let nstds := dflt (w_nstds w) (z_nstds z) in
    let half := dflt (w_half w) (z_half z) in
    let inputs := dflt (w_inputs w) [] in
    let clip := verify_enum clip_named (match w_clip w with Some v => if falsy_enum v then ENum (z_clip z) else v | None => ENum (z_clip z) end) in
    let auto := dflt (w_auto w) (z_auto z) in
    match f with
    | FParam =>
        let fake := dflt (w_fake w) false in
        if fpq_true fpq && negb fake then do d <- fpq_dtype fpq; Ok (RFp d true)
        else
          do c <- clip;
          do m <- verify_mode (dflt (w_mode w) (MPair (fst (z_mode z)) (snd (z_mode z))));
          let s := mkWset (q_acts q) m c nstds half approx inputs (z_auto z) st in
          if fake || acts_only q then fake_init false s fpq false
          else param_init s (q_wts q) (z_accum z) (dflt (w_perch w) (z_perch z)) (z_save z) (z_also z)
    | FNonParam =>
        let fake := dflt (w_fake w) false in
        if fpq_true fpq && negb fake then do d <- fpq_dtype fpq; Ok (RFp d true)
        else
          do c <- clip;
          let s := mkWset (q_acts q) (z_mode z) c nstds half approx inputs auto st in
          if fake then fake_init false s fpq false else non_param_init t s
    | FEmb =>
        if fpq_true fpq then do d <- fpq_dtype fpq; Ok (RFp d false)
        else
          let c := if z_also z then (dflt (w_clip w) (ENum (z_clip z)), nstds, half) else (ENum CNone, None, false) in
          emb_wrap (q_wts q) (snd (z_mode z)) (fst (fst c)) (snd (fst c)) (snd c) (z_save z) st
    | FFake =>
        let relu := match t with PtRelu | PtRelu6 => true | _ => false end in
        do id <- (if relu && dflt (w_ident w) false then pred_wrapped else Ok false);
        if id then Ok RIdent
        else if kids then Ok RSame
        else if negb (dflt (w_fake w) true) then do d <- fpq_dtype fpq; Ok (RFp d true)
        else
          do c <- clip;
          fake_init relu (mkWset (q_acts q) (z_mode z) c nstds half approx inputs auto st) fpq (dflt (w_qin w) true)
    end.

(** quantizer.py:294-323: a module that is in the black list, or whose bits are both None and has no override arguments, or
    whose class has no replacement function, stays *)
Definition replacement (z : pq) (t : ptype) (kids : bool) (st : option lstats) (pred_wrapped : res bool) (q : qbits) (w : okw) : res rwrap :=
  match factory_of t with
  | None => Ok RSame
  | Some f =>
      if (match q_acts q, q_wts q with None, None => true | _, _ => false end) && (match wkeys w with [] => true | _ => false end) then Ok RSame
      else run_factory z f t kids st pred_wrapped q w
  end.
End Weights.

(** range_linear.py:427-445: the constructor pops the keys of the input overrides, which belong to the recorded arguments *)
Definition after_init (acts : option Z) (w : okw) : okw :=
  match acts with
  | None => w
  | Some _ =>
      mkOkw (w_perch w) (w_mode w) (w_fp16 w) (w_approx w) (w_clip w) (w_nstds w) (w_half w)
        (option_map (map (fun e : nat * override => (fst e, Custom None None None None))) (w_inputs w))
        (w_auto w) (w_fpq w) (w_fake w) (w_ident w) (w_qin w) (w_other w)
  end.
Definition with_clip (c : clipmode) (w : okw) : okw :=
  mkOkw (w_perch w) (w_mode w) (w_fp16 w) (w_approx w) (Some (ENum c)) (w_nstds w) (w_half w) (w_inputs w)
    (w_auto w) (w_fpq w) (w_fake w) (w_ident w) (w_qin w) (w_other w).

(* ------------------------------------------------------------------------- *)
(** * range_linear.py:1888-1926 [from_args] without a configuration file *)
Record qargs := mkQargs {
  g_bits_acts : Z; g_bits_wts : Z; g_bits_accum : Z; g_mode : lqmode; g_mode_acts : option lqmode; g_mode_wts : option lqmode;
  g_clip : clipmode; g_nstds : option Q; g_perch : bool; g_dynamic : bool; g_stats_file : option string; g_approx : option Z;
  g_no_quant : list string; g_no_clip : list string; g_save : bool }.
(** an entry of the overrides: no quantization, or clip_acts = 'NONE' *)
Inductive aentry := NoQuant | NoClip.
Definition bits_arg (b : Z) : option Z := if Z.eqb b 0 then None else Some b.
Definition dset_all {A} (d : dict A) (l : list (string * A)) : dict A := fold_left (fun d e => dset d (fst e) (snd e)) l d.
Definition args_overrides (a : qargs) : dict aentry :=
  let d := dset_all [] (map (fun l => (l, NoQuant)) (g_no_quant a)) in
  let e := dset_all [] (map (fun l => (l, NoClip)) (filter (fun l => negb (mem_str (g_no_quant a) l)) (g_no_clip a))) in
  dset_all d e.
Record fargs := mkFargs {
  x_acts : option Z; x_wts : option Z; x_accum : Z; x_mode : lqmode * lqmode; x_clip : clipmode; x_nstds : option Q;
  x_perch : bool; x_stats : option string; x_approx : option Z; x_over : dict aentry; x_save : bool; x_also : bool; x_fpq : fpqv; x_half : bool }.
Definition from_args (a : qargs) : fargs :=
  mkFargs (bits_arg (g_bits_acts a)) (bits_arg (g_bits_wts a)) (g_bits_accum a)
    (dflt (g_mode_acts a) (g_mode a), dflt (g_mode_wts a) (g_mode a)) (g_clip a) (g_nstds a) (g_perch a)
    (if g_dynamic a then None else g_stats_file a) (g_approx a) (args_overrides a) (g_save a) false FNone false.
