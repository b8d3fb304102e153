(** Specification vocabulary for the replacement of modules by wrappers (C91) and the command line (C92). *)
From Coq Require Import String Ascii List ZArith QArith Bool Arith.
From Verif Require Import Base Names StructModel QuantModel RangeModel QzrModel QzrSpec PrepModel EmbModel ReplModel.
Import ListNotations.
Local Open Scope string_scope.
Open Scope list_scope.

(** classes without a wrapper of their own (and not excluded) *)
Definition no_wrapper_class (t : ptype) : Prop := t = PtRelu \/ t = PtRelu6 \/ t = PtSim \/ t = PtOther.

(** the override arguments that make sense for a class of modules, by argument *)
Definition accepted_by (t : ptype) (k : string) : Prop :=
  In k ["fp16"; "fpq_module"; "clip_acts"; "clip_n_stds"; "clip_half_range"] \/
  (In k ["scale_approx_mult_bits"; "input_overrides"; "fake"] /\ t <> PtEmb) \/
  (k = "inputs_quant_auto_fallback" /\ t <> PtEmb /\ t <> PtParam) \/
  (In k ["mode"; "per_channel_wts"] /\ t = PtParam) \/
  (In k ["make_identity"; "quantize_inputs"] /\ no_wrapper_class t).

(** the override's value if given, else the quantizer's *)
Definition chosen {A} (o : option A) (d v : A) : Prop := v = match o with Some x => x | None => d end.
(** the clipping mode: the override's, by name or as a member; none given (or None, or ''): the quantizer's *)
Definition chosen_clip (o : option (enumv clipmode)) (d v : clipmode) : Prop :=
  match o with
  | None | Some ENone | Some (EStr "") => v = d
  | Some (ENum c) => v = c
  | Some (EStr s) => In (s, v) [("NONE", CNone); ("AVG", CAvg); ("N_STD", CNStd); ("GAUSS", CGauss); ("LAPLACE", CLaplace)]
  | Some EElse => False
  end.
Definition means_mode (e : enumv lqmode) (m : lqmode) : Prop :=
  e = ENum m \/ exists s, e = EStr s /\ In (s, m) [("SYMMETRIC", SYM); ("SYMMETRIC_RESTRICTED", SYMR); ("ASYMMETRIC_UNSIGNED", ASU); ("ASYMMETRIC_SIGNED", ASS)].
Definition chosen_mode (o : option modev) (d v : lqmode * lqmode) : Prop :=
  match o with
  | None => v = d
  | Some (MPair a w) => v = (a, w)
  | Some (MDict a w) => means_mode a (fst v) /\ means_mode w (snd v)
  | Some (MOne e) => means_mode e (fst v) /\ snd v = fst v
  end.

(** the precision that was asked for: fpq_module if set, else 16 if fp16 *)
Definition asked (z : pq) (w : okw) : fpqv :=
  let fpq := match w_fpq w with Some v => v | None => z_fpq z end in
  let fp16 := match w_fp16 w with Some b => b | None => z_fp16 z end in
  if fpq_true fpq then fpq else if fp16 then FInt 16 else fpq.

(** settings of a wrapper of a module of class [t] *)
Definition settings_from (z : pq) (t : ptype) (st : option lstats) (q : qbits) (w : okw) (s : wset) : Prop :=
  a_acts s = q_acts q /\
  (t = PtParam -> chosen_mode (w_mode w) (z_mode z) (a_mode s)) /\ (t <> PtParam -> a_mode s = z_mode z) /\
  chosen_clip (w_clip w) (z_clip z) (a_clip s) /\ chosen (w_nstds w) (z_nstds z) (a_nstds s) /\
  (t <> PtRelu -> t <> PtRelu6 -> chosen (w_half w) (z_half z) (a_half s)) /\ (t = PtRelu \/ t = PtRelu6 -> a_half s = true) /\
  chosen (w_approx w) (z_approx z) (a_approx s) /\ chosen (w_inputs w) [] (a_inputs s) /\
  chosen (w_auto w) (z_auto z) (a_auto s) /\
  (a_stats s = st \/ ((t = PtRelu \/ t = PtRelu6) /\ (a_clip s = CGauss \/ a_clip s = CLaplace))).

(** a wrapper, with the details left out (C88) *)
Definition dtype_bits (d : dtype) : Z := match d with F16 => 16 | F64 => 64 | _ => 32 end.
Definition erase (r : rwrap) : wrap :=
  match r with
  | RSame => WSame
  | RIdent => WIdent
  | RFp d _ => WFp (dtype_bits d)
  | RParam s _ _ _ _ _ => WQuant (a_acts s) (a_half s)
  | RNonParam s => WQuant (a_acts s) (a_half s)
  | RFake s _ qin => WFake (a_acts s) (a_half s) qin
  | REmb _ _ _ _ _ _ _ => WEmb
  end.
Definition fpq_z (v : fpqv) : option Z := match v with FInt z => Some z | _ => None end.
Definition to_kw (w : okw) : kw :=
  mkKw (w_half w) (w_ident w) (w_fake w) (option_map fpq_z (w_fpq w)) (w_qin w)
    (match wkeys w with [] => false | _ => true end).

(** * The command line *)
(** a layer name given as an override key: a regular expression in which every dot stands for any character *)
Fixpoint name_regex (s : string) : regex :=
  match s with
  | "" => REps
  | String c s => RCat (if Ascii.eqb c "."%char then RAny else RChr c) (name_regex s)
  end.
(** two names that agree except possibly where the first has a dot *)
Fixpoint same_but_dots (k n : string) : Prop :=
  match k, n with
  | "", "" => True
  | String a k, String b n => (a = b \/ a = "."%char) /\ same_but_dots k n
  | _, _ => False
  end.
Definition entry_of (d : qbits) (e : aentry) : ovr' :=
  match e with
  | NoQuant => mkOvr' (mkQb None None (q_bias d)) []
  | NoClip => mkOvr' d [("clip_acts", 0%Z)]
  end.
Definition as_overrides (d : qbits) (x : dict aentry) : overrides' :=
  map (fun e : string * aentry => ((name_regex (fst e), []), entry_of d (snd e))) x.
