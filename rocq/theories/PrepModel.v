(** Model of the preparation of a model for post-training quantization in
    distiller/quantization/range_linear.py (PostTrainLinearQuantizer): the propagation of statistics to layers with a folded
    batch normalization, the clipping of statistics of layers followed by an activation, the fusing of ReLUs, and which
    wrapper replaces each module.

    The adjacency map (C65) and the bit-width and override maps (C35, C54) are inputs. Of a layer's override arguments those
    that decide the wrapper and the half range are modelled ([fp16] is the same as [fpq_module = 16]). A module reached under
    two names is not modelled (the second name refers to the first's wrapper, C54). *)
From Coq Require Import String List ZArith QArith Qabs Bool Arith.
From Verif Require Import Base Names StructModel QuantModel RangeModel QzrModel.
Import ListNotations.
Local Open Scope string_scope.
Open Scope list_scope.

(** Classes of modules that the code distinguishes: nn.ReLU; nn.ReLU6; SimulatedFoldedBatchNorm; Conv2d, Conv3d, Linear;
    Concat, EltwiseAdd, EltwiseMult; Matmul, BatchMatmul; Embedding; Dropout; Identity; anything else *)
Inductive ptype := PtRelu | PtRelu6 | PtSim | PtParam | PtEltwise | PtMatmul | PtEmb | PtDropout | PtIdentity | PtOther.
Record pmod := mkPmod {
  pm_type : ptype;
  pm_kids : bool;                          (* has_children *)
  pm_fused : option (list string) }.       (* fused_modules, left by model_transforms.py:148-151 *)
Record gop := mkOp { go_name : string; go_type : string }.
Record adjent := mkAdj { a_preds : list gop; a_succs : list gop }.
(** model_activation_stats[name]: 'inputs' (by position) and 'output' *)
Record lstats := mkLs { ls_inputs : list (nat * stats); ls_output : stats }.

(** dict.pop(k, None) *)
Definition dpop {A} (d : dict A) (k : string) : dict A := filter (fun p : string * A => negb (String.eqb k (fst p))) d.
(** d[i] = v for a dictionary with integer keys *)
Fixpoint nset {A} (d : list (nat * A)) (i : nat) (v : A) : list (nat * A) :=
  match d with
  | [] => [(i, v)]
  | (j, w) :: r => if Nat.eqb i j then (j, v) :: r else (j, w) :: nset r i v
  end.

(** range_linear.py:2030-2048 of [_apply_bn_folding] *)
Definition bn_step (st : dict lstats) (e : string * pmod) : res (dict lstats) :=
  match pm_fused (snd e) with
  | None => Ok st
  | Some [] => Raise IndexError
  | Some (b :: _) =>
      let b := normalize_module_name b in
      match dget st b with
      | None => Ok st
      | Some bs =>
          let st := dpop st b in
          let n := normalize_module_name (fst e) in
          match dget st n with
          | None => Raise KeyError
          | Some ls => Ok (dset st n (mkLs (ls_inputs ls) (ls_output bs)))
          end
      end
  end.
Definition bn_stats (mods : dict pmod) (st : dict lstats) : res (dict lstats) :=
  match st with [] => Ok st | _ => foldM bn_step mods st end.

(** lines 2064-2074, 2120-2129: the successor of a module whose output is quantized, is no container and has one successor *)
Definition single_successor (qm : dict qbits) (am : dict adjent) (n : string) (m : pmod) : option gop :=
  match dget qm n with
  | Some (mkQb (Some _) _ _) =>
      if pm_kids m && negb (match pm_type m with PtSim => true | _ => false end) then None
      else match dget am n with
           | Some a => match a_succs a with [s] => Some s | _ => None end
           | None => None
           end
  | _ => None
  end.

(** lines 2075-2089: the type of the successor, looking through a split *)
Definition all_of (types : list string) (ops : list gop) : bool :=
  forallb (fun o => existsb (String.eqb (go_type o)) types) ops.
Definition effective_type (am : dict adjent) (s : gop) : res string :=
  if String.eqb (go_type s) "Split" then
    match dget am (go_name s) with
    | None => Raise KeyError
    | Some a =>
        Ok (if all_of ["Relu"] (a_succs a) then "Relu"
            else if all_of ["Tanh"] (a_succs a) then "Tanh"
            else if all_of ["Sigmoid"; "Tanh"] (a_succs a) then "Sigmoid"
            else "Split")
    end
  else Ok (go_type s).
(** lines 2091-2107: the clipping values *)
Definition is_relu6 (mods : dict pmod) (n : string) : bool :=
  match dget mods n with Some m => match pm_type m with PtRelu6 => true | _ => false end | None => false end.
Definition clip_bounds (mods : dict pmod) (s : gop) (ty : string) (mx : Q) : option (Q * Q) :=
  if String.eqb ty "Relu" then Some (0, mx)
  else if String.eqb ty "Sigmoid" then Some (- (6), 6)
  else if String.eqb ty "Tanh" then Some (- (4), 4)
  else if is_relu6 mods (go_name s) then Some (0, qmin mx 6)
  else None.
(** lines 2062-2114 [_apply_activation_stats_fusions] *)
Definition fusion_step (mods : dict pmod) (am : dict adjent) (qm : dict qbits) (st : dict lstats) (e : string * pmod) : res (dict lstats) :=
  match single_successor qm am (fst e) (snd e) with
  | None => Ok st
  | Some s =>
      let n := normalize_module_name (fst e) in
      match dget st n with
      | None => Raise KeyError
      | Some ls =>
          do ty <- effective_type am s;
          match clip_bounds mods s ty (st_max (ls_output ls)) with
          | None => Ok st
          | Some (lo, hi) =>
              let out := clip_stats (ls_output ls) lo hi in
              let st := dset st n (mkLs (ls_inputs ls) out) in
              if String.eqb (go_type s) "Split" then Ok st
              else let k := normalize_module_name (go_name s) in
                   match dget st k with
                   | None => Ok st
                   | Some ss => Ok (dset st k (mkLs (nset (ls_inputs ss) 0 out) (ls_output ss)))
                   end
          end
      end
  end.
Definition stats_fusions (mods : dict pmod) (am : dict adjent) (qm : dict qbits) (st : dict lstats) : res (dict lstats) :=
  match st with [] => Ok st | _ => foldM (fusion_step mods am qm) mods st end.

(** The override arguments of a layer that matter here; [k_more]: there are others *)
Record kw := mkKw { k_half : option bool; k_ident : option bool; k_fake : option bool; k_fpq : option (option Z); k_qin : option bool; k_more : bool }.
Definition kw0 : kw := mkKw None None None None None false.
Definition kw_empty (k : kw) : bool :=
  match k with mkKw None None None None None false => true | _ => false end.
(** lines 2116-2137 [_apply_fuse_relu] *)
Definition is_relu_any (mods : dict pmod) (n : string) : bool :=
  match dget mods n with Some m => match pm_type m with PtRelu | PtRelu6 => true | _ => false end | None => false end.
Definition getkw (ov : dict kw) (n : string) : kw := match dget ov n with Some k => k | None => kw0 end.
Definition fuse_step (mods : dict pmod) (am : dict adjent) (qm : dict qbits) (ov : dict kw) (e : string * pmod) : dict kw :=
  match single_successor qm am (fst e) (snd e) with
  | None => ov
  | Some s =>
      let k := getkw ov (fst e) in
      let ov := dset ov (fst e) k in
      if is_relu_any mods (go_name s) then
        let ov := dset ov (fst e) (mkKw (Some true) (k_ident k) (k_fake k) (k_fpq k) (k_qin k) (k_more k)) in
        let k2 := getkw ov (go_name s) in
        dset ov (go_name s) (mkKw (k_half k2) (Some true) (k_fake k2) (k_fpq k2) (k_qin k2) (k_more k2))
      else ov
  end.
Definition fuse_relu (mods : dict pmod) (am : dict adjent) (qm : dict qbits) (ov : dict kw) : dict kw :=
  fold_left (fuse_step mods am qm) mods ov.

(** * Which wrapper replaces a module *)
Inductive wrap :=
| WSame                                                   (* the module stays *)
| WIdent                                                  (* nn.Identity *)
| WFp (precision : Z)                                     (* FPWrapper *)
| WQuant (acts : option Z) (half : bool)                  (* RangeLinearQuantParamLayerWrapper and the non-parameter wrappers *)
| WFake (acts : option Z) (half qin : bool)               (* RangeLinearFakeQuantWrapper *)
| WEmb.                                                   (* RangeLinearEmbeddingWrapper *)
(** isinstance(m, RangeLinearQuantWrapper) *)
Definition is_rlq (w : wrap) : bool := match w with WQuant _ _ | WFake _ _ _ => true | _ => false end.

Record pcfg := mkPcfg { g_mode : lqmode; g_clip : clipmode; g_nstds : option Q; g_half : bool; g_fpq : option Z }.
(** if fpq_module: 0 counts as unset *)
Definition truthy (o : option Z) : bool := match o with Some z => negb (Z.eqb z 0) | None => false end.
(** lines 1283-1296 (FPWrapper): the precision must be 16, 32 or 64 *)
Definition fp_wrapper (o : option Z) : res wrap :=
  match o with
  | Some z => if existsb (Z.eqb z) [16; 32; 64]%Z then Ok (WFp z) else Raise KeyError
  | None => Raise KeyError
  end.
(** lines 1655-1689 [replace_param_layer], 1691-1723 [replace_non_param_layer], 1725-1736 [replace_embedding], 1738-1768
    [replace_fake_quant]; 1451-1461: a fake-quantized ReLU has half range. [done] are the modules replaced so far.
    quantizer.py:289-312 [_pre_process_container]: the cases without replacement function. *)
Definition replace (g : pcfg) (am : dict adjent) (st : dict lstats) (done : dict wrap) (n : string) (m : pmod) (q : qbits) (k : kw) : res wrap :=
  let half := dflt (k_half k) (g_half g) in
  let fpq := dflt (k_fpq k) (g_fpq g) in
  let has_stats := dmem st (normalize_module_name n) in
  match pm_type m with
  | PtDropout | PtIdentity => Ok WSame
  | _ =>
      if (match q_acts q, q_wts q with None, None => true | _, _ => false end) && kw_empty k then Ok WSame
      else
        match pm_type m with
        | PtParam =>
            let fake := dflt (k_fake k) false in
            if truthy fpq && negb fake then fp_wrapper fpq
            else if fake || (match q_acts q, q_wts q with Some _, None => true | _, _ => false end) then Ok (WFake (q_acts q) half false)
            else Ok (WQuant (q_acts q) half)
        | PtEltwise | PtMatmul =>
            let fake := dflt (k_fake k) false in
            if truthy fpq && negb fake then fp_wrapper fpq
            else if fake then Ok (WFake (q_acts q) half false)
            else if (match pm_type m with PtMatmul => true | _ => false end) || has_stats then Ok (WQuant (q_acts q) half)
            else Ok WSame
        | PtEmb => if truthy fpq then fp_wrapper fpq else Ok WEmb
        | _ =>
            let relu := match pm_type m with PtRelu | PtRelu6 => true | _ => false end in
            do ident <- (if relu && dflt (k_ident k) false then
                           match dget am n with
                           | None => Raise KeyError
                           | Some a => match a_preds a with
                                       | [] => Raise IndexError
                                       | p :: _ => match dget done (go_name p) with Some w => Ok (is_rlq w) | None => Raise KeyError end
                                       end
                           end
                         else Ok false);
            if ident then Ok WIdent
            else if pm_kids m then Ok WSame
            else if negb (dflt (k_fake k) true) then fp_wrapper fpq
            else Ok (WFake (q_acts q) (relu || half) (dflt (k_qin k) true))
        end
  end.
(** quantizer.py:273-325: the modules in the order of named_modules; modules not reached yet are still the original ones *)
Definition replace_step (g : pcfg) (am : dict adjent) (st : dict lstats) (qm : dict qbits) (ov : dict kw) (done : dict wrap) (e : string * pmod) : res (dict wrap) :=
  match dget qm (fst e) with
  | None => Raise KeyError
  | Some q => do w <- replace g am st done (fst e) (snd e) q (getkw ov (fst e)); Ok (dset done (fst e) w)
  end.
Definition replace_all (g : pcfg) (mods : dict pmod) (am : dict adjent) (st : dict lstats) (qm : dict qbits) (ov : dict kw) : res (dict wrap) :=
  foldM (replace_step g am st qm ov) mods (map (fun e : string * pmod => (fst e, WSame)) mods).
(** lines 1987-1996, quantizer.py:241-243: the statistics and the wrappers after preparation (batch normalizations folded and
    the adjacency map made again, C50) *)
Definition prepare (g : pcfg) (mods : dict pmod) (am : dict adjent) (st : dict lstats) (qm : dict qbits) (ov : dict kw) : res (dict lstats * dict wrap) :=
  do st1 <- bn_stats mods st;
  do st2 <- stats_fusions mods am qm st1;
  do w <- replace_all g mods am st2 qm (fuse_relu mods am qm ov);
  Ok (st2, w).

(** * What a prepared module computes, apart from rounding *)
(** lines 170-205, with q_utils.py: the range that is represented *)
Definition saturation (g : pcfg) (bits : Z) (half : bool) (s : stats) : option (Q * Q) :=
  match stats_range s bits (PM (g_mode g)) (g_clip g) (g_nstds g) half with
  | Raise _ => None
  | Ok (a, b) => Some (if is_sym (PM (g_mode g)) then (- qmax (Qabs a) (Qabs b), qmax (Qabs a) (Qabs b)) else (qmin a 0, qmax b 0))
  end.
Definition relu6 (x : Q) : Q := qmin (qmax x 0) 6.
Definition saturate (r : option (Q * Q)) (t : tensor) : tensor :=
  match r with Some (lo, hi) => map (fun x => clamp x lo hi) t | None => t end.
(** lines 550-589 [forward]: without quantized output the half range is a ReLU; with it, a ReLU on the accumulator and the
    saturation of the output (no saturation if the range is found from the output itself) *)
Definition wrapped (g : pcfg) (st : dict lstats) (n : string) (w : wrap) (f : list tensor -> tensor) (xs : list tensor) : tensor :=
  let quant (acts : option Z) (half : bool) :=
    let r := f xs in
    let r := if half then map relu r else r in
    match acts with
    | None => r
    | Some b => match dget st (normalize_module_name n) with
                | None => r
                | Some ls => saturate (saturation g b half (ls_output ls)) r
                end
    end in
  match w with
  | WSame | WFp _ | WEmb => f xs
  | WIdent => hd [] xs
  | WQuant a h => quant a h
  | WFake a h _ => quant a h
  end.
