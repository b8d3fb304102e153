(** Model of the greedy search for post-training quantization settings
    (distiller/quantization/ptq_greedy_search.py).  Quantizing a copy of the model with some overrides
    and evaluating it is an arbitrary function of the overrides ([score]); the summary graph enters as the
    topological order of its layers and the successors of each.  nn.DataParallel models (whose names are
    rewritten, lines 204-205, 353-354, 385-386) are not modelled.  The module-level variables [model], [dummy_input] and
    [msglogger] that the code uses are those set when the file is run as a program. *)
From Coq Require Import String List ZArith QArith Bool Arith.
From Verif Require Import Base.
Import ListNotations.
Local Open Scope string_scope.

(** Values in an overrides dictionary; [VInputs] is the dictionary 'input_overrides', keyed by input index *)
Inductive val :=
| VNone | VInt (z : Z) | VBool (b : bool) | VStr (s : string)
| VDict (d : list (string * val)) | VInputs (d : list (nat * val)).

Definition ov := dict val.

(** Python's truth value *)
Definition truthy (v : val) : bool :=
  match v with
  | VNone => false
  | VInt z => negb (Z.eqb z 0)
  | VBool b => b
  | VStr s => negb (String.eqb s "")
  | VDict d => match d with [] => false | _ => true end
  | VInputs d => match d with [] => false | _ => true end
  end.

(** [d.get(k)] as a truth value *)
Definition has (d : ov) (k : string) : bool := match dget d k with Some v => truthy v | None => false end.

(** [d.update(e)] *)
Definition dupdate (d e : ov) : ov := fold_left (fun d kv => dset d (fst kv) (snd kv)) e d.

(** [overrides.get(name, None)] is missing or an empty dictionary: it becomes an empty dictionary
    (ptq_greedy_search.py:207-208, 363-364, 396-397) *)
Definition ensure (b : dict ov) (n : string) : dict ov :=
  match dget b n with
  | None | Some [] => dset b n []
  | Some _ => b
  end.

(** [overrides[name].update(e)] *)
Definition update_at (b : dict ov) (n : string) (e : ov) : res (dict ov) :=
  match dget b n with None => Raise KeyError | Some d => Ok (dset b n (dupdate d e)) end.

(** Classes of modules that the search distinguishes (lines 41-74) *)
Inductive mclass :=
| MLinear | MConv2d | MConv3d | MConcat | MEltAdd | MEltMult | MMatmul | MBatchMatmul
| MTanh | MSigmoid | MSoftmax | MIdentity | MBN1d | MBN2d | MBN3d | MReLU | MReLU6 | MOther.

Definition is_quantized (c : mclass) : bool :=
  match c with MLinear | MConv2d | MConv3d | MConcat | MEltAdd | MEltMult | MMatmul | MBatchMatmul => true | _ => false end.
Definition is_fp16 (c : mclass) : bool := match c with MTanh | MSigmoid => true | _ => false end.
Definition is_param (c : mclass) : bool := match c with MLinear | MConv2d | MConv3d => true | _ => false end.
Definition is_unquantized (c : mclass) : bool := match c with MSoftmax => true | _ => false end.
Definition is_skip (c : mclass) : bool :=
  match c with MIdentity | MBN1d | MBN2d | MBN3d | MReLU | MReLU6 => true | _ => false end.
Definition is_relu (c : mclass) : bool := match c with MReLU => true | _ => false end.

(** lines 76-80 *)
Definition clip_modes : list string := ["NONE"; "AVG"; "GAUSS"; "LAPLACE"].

(** lines 125-149 [input_override_generator]; [npred] is the number of predecessors of the module *)
Definition input_override_generator (c : mclass) (npred : nat) (idx : nat) (bits_acts bits_wts : val) : res (list ov) :=
  if Nat.ltb idx npred then
    Ok (map (fun clip =>
      let o := dset [("input_overrides", VInputs [(idx, VDict [("bits_activations", bits_acts); ("clip_acts", VStr clip)])])]
                    "bits_activations" bits_acts in
      if is_param c then dset o "bits_weights" bits_wts else o) clip_modes)
  else Raise AssertionError.

(** lines 152-194 [module_override_generator]; [succs] are the classes of the successors that are modules *)
Definition module_override_generator (c : mclass) (succs : list mclass) (bits_acts bits_wts : val) : list ov :=
  if is_relu c then
    [[("make_identity", VBool true); ("bits_weights", bits_wts); ("bits_activations", bits_acts)]]
  else
    let use_half_range := forallb is_relu succs in
    let fp1 := if is_fp16 c then (VInt 16, true) else (VNone, false) in
    let fp2 := if is_unquantized c || negb (is_quantized c) then (VInt 32, true) else fp1 in
    map (fun clip =>
      let o := if is_param c
               then [("clip_acts", VStr clip); ("bits_weights", bits_wts); ("bits_activations", bits_acts); ("bits_bias", VInt 32)]
               else [("clip_acts", VStr clip); ("fpq_module", fst fp2); ("fake", VBool (snd fp2));
                     ("bits_weights", bits_wts); ("bits_activations", bits_acts)] in
      dset o "clip_half_range" (VBool (use_half_range && (String.eqb clip "GAUSS" || String.eqb clip "LAPLACE"))))
      clip_modes.

(** lines 104-122 [get_inputs_to_quantize] on the arguments 'name#index', already split: the indices of each name *)
Definition get_inputs_to_quantize (args : list (string * nat)) : dict (list nat) :=
  fold_left (fun d a => dset d (fst a) ((match dget d (fst a) with Some l => l | None => [] end) ++ [snd a])%list) args [].

Section Search.
Variable score : dict ov -> res Q.     (* quantize a copy of the model with these overrides and evaluate it *)

(** lines 206-234: the loop of [search_best_local_settings]; the state is [overrides_dict], the best performance
    (None: minus infinity) and [best_local_override] *)
Definition try_override (n : string) (st : dict ov * option Q * ov) (local : ov) : res (dict ov * option Q * ov) :=
  let '(overrides, best_perf, best_local) := st in
  do overrides' <- update_at (ensure overrides n) n local;
  do perf <- score overrides';
  if match best_perf with None => true | Some b => Qltb b perf end
  then Ok (overrides', Some perf, local)
  else Ok (overrides', best_perf, best_local).

(** lines 198-237 [search_best_local_settings] *)
Definition search_best_local_settings (n : string) (best : dict ov) (candidates : list ov) : res ov :=
  do st <- foldM (try_override n) candidates (best, None, []);
  Ok (snd st).

(** The model and the generators *)
Variable modules : dict mclass.                          (* model.named_modules() *)
Variable in_gen : string -> nat -> dict ov -> res (list ov).   (* candidates for an input of a module *)
Variable mod_gen : string -> dict ov -> res (list ov).         (* candidates for a module *)

Definition module_of (n : string) : res mclass :=
  match dget modules n with Some c => Ok c | None => Raise KeyError end.

(** lines 365-372 *)
Definition input_step (n : string) (best : dict ov) (idx : nat) : res (dict ov) :=
  do cands <- in_gen n idx best;
  do b <- search_best_local_settings n best cands;
  update_at best n b.

(** lines 344-375: the inputs of one module; the state is [best_overrides_dict] and [loaded_from_checkpoint] *)
Definition input_module (st : dict ov * list string) (ni : string * list nat) : res (dict ov * list string) :=
  let (best, loaded) := st in
  let (n, idxs) := ni in
  do c <- module_of n;
  if is_skip c then Ok st
  else
    let entry := match dget best n with Some d => d | None => [] end in
    if has entry "input_overrides" then
      Ok (best, if has entry "bits_activations" then (loaded ++ [n])%list else loaded)
    else
      do best1 <- foldM (input_step n) idxs (ensure best n);
      match dget best1 n with
      | None => Raise KeyError
      | Some d => match dget d "input_overrides" with
                  | None => Raise KeyError
                  | Some v => Ok (dset best1 n [("input_overrides", v)], loaded)
                  end
      end.

(** lines 398-406: the workaround for a layer called 'fc' *)
Definition fc_workaround (n : string) (best : dict ov) : res (dict ov) :=
  if String.eqb n "fc" then
    update_at best "fc" [("input_overrides", VInputs [(0%nat, VDict [("bits_activations", VInt 8); ("clip_acts", VStr "NONE")])])]
  else Ok best.

(** lines 378-414: one module; the third component is the list of dictionaries saved to the search checkpoint *)
Definition module_step (st : dict ov * list string * list (dict ov)) (n : string)
  : res (dict ov * list string * list (dict ov)) :=
  let '(best, loaded, saved) := st in
  do c <- module_of n;
  if is_skip c then Ok st
  else
    let entry := match dget best n with Some d => d | None => [] end in
    if dmem best n && has entry "bits_activations" && negb (existsb (String.eqb n) loaded) then
      Ok (best, (loaded ++ [n])%list, saved)
    else
      do best1 <- fc_workaround n (ensure best n);
      do cands <- mod_gen n best1;
      do b <- search_best_local_settings n best1 cands;
      do best2 <- update_at best1 n b;
      Ok (best2, loaded, (saved ++ [best2])%list).

(** lines 240-431 [ptq_greedy_search]: [resume] is the search checkpoint to resume from, [order] the layers in
    topological order; returns the best overrides and the checkpoints saved on the way *)
Definition ptq_greedy_search (resume : option (dict ov)) (order no_quant : list string)
           (quantize_inputs : list (string * nat)) : res (dict ov * list (dict ov)) :=
  let best0 := match resume with Some d => d | None => [] end in
  let to_quantize := filter (fun n => negb (existsb (String.eqb n) no_quant)) order in
  do st <- foldM input_module (get_inputs_to_quantize quantize_inputs) (best0, []);
  do st' <- foldM module_step to_quantize (fst st, snd st, []);
  do _final <- score (fst (fst st'));
  Ok (fst (fst st'), snd st').
End Search.
