(** Model of the two passes of pytorch_quant_conversion.py over a model, and of its conditional
    quantize / dequantize modules.

    [V] is a tensor, quantized or not.  A module without children is its forward function (arguments to
    result, or an exception).  The forward of a container is a straight-line program: calls of modules by
    path and other functions of earlier values (the control flow of a real forward may depend on data; a
    program stands for one that does not).  No module object occurs twice (named_children would skip the
    second); values are tensors (nested tuples, which ConditionalDeQuantize also handles, are not modelled). *)
From Coq Require Import String List ZArith QArith Bool Arith.
From Verif Require Import Base Lists StructModel QuantModel RangeModel PtqModel.
Import ListNotations.

Section Passes.
Variables (V : Type) (isq : V -> bool) (quantize : Q * Z -> V -> V) (dequantize : V -> V).

Definition fn := list V -> res V.

(** The modules before conversion, with what their own conversion gives ([to_pytorch_quant], see PtqModel):
    a RangeLinearQuantWrapper with the parameters (scale, zero-point), bits and mode of
    inputs_quant_metadata_fallback, and its native module; one whose native form is a float module between
    de-quantization and quantization (RangeLinearFakeQuantWrapper, range_linear.py:1505-1531); an embedding;
    nn.Identity; any other module without children *)
Inductive kind :=
| KWrap (fallback : list (nat * (Q * Q * Z * lqmode))) (native : fn)
| KFake (f : fn)
| KEmb (f : fn)
| KIdent
| KLeaf (f : fn).
Inductive dtree := DLeaf (k : kind) | DNode (children : list (string * dtree)).

(** What stands in front of a module after conversion: nothing, ConditionalQuantize with its quantizers, ConditionalDeQuantize *)
Inductive pre := PNone | PQuant (qs : list (nat * (Q * Z))) | PDeq.
Inductive ctree := CLeaf (p : pre) (f : fn) | CNode (children : list (string * ctree)).

Definition ident : fn := fun args => match args with [x] => Ok x | _ => Raise TypeError end.

(** pytorch_quant_conversion.py:159-181: one module *)
Definition conv_fallback (eng : engine) (e : nat * (Q * Q * Z * lqmode)) : res (nat * (Q * Z)) :=
  let '(i, (p, bits, m)) := e in
  do c <- qparams_to_pytorch [p] bits m QUInt8 (need_reduce_range eng m QUInt8);
  do c <- one_param c;
  Ok (i, c).
Definition conv_leaf (eng : engine) (k : kind) : res (pre * fn) :=
  match k with
  | KWrap fb f => do qs <- mapM (conv_fallback eng) fb; Ok (PQuant qs, f)
  | KFake f => Ok (PDeq, f)
  | KEmb f => Ok (PNone, f)
  | KIdent => Ok (PNone, ident)
  | KLeaf f => Ok (PDeq, f)
  end.
(** pytorch_quant_conversion.py:149-186 [_ptq_convert_pass_replace_range_linear_wrappers] *)
Fixpoint convert (eng : engine) (t : dtree) : res ctree :=
  match t with
  | DLeaf k => do pf <- conv_leaf eng k; Ok (CLeaf (fst pf) (snd pf))
  | DNode cs =>
      do cs' <- (fix go (l : list (string * dtree)) : res (list (string * ctree)) :=
                   match l with
                   | [] => Ok []
                   | (n, c) :: r => do c' <- convert eng c; do r' <- go r; Ok ((n, c') :: r')
                   end) cs;
      Ok (CNode cs')
  end.

(** pytorch_quant_conversion.py:398-407 [ConditionalDeQuantize.forward], 420-430 [ConditionalQuantize.forward] *)
Fixpoint quant_args (i : nat) (qs : list (nat * (Q * Z))) (args : list V) : list V :=
  match args with
  | [] => []
  | v :: r => (match find (fun e => Nat.eqb (fst e) i) qs with
               | Some e => if isq v then v else quantize (snd e) v
               | None => v
               end) :: quant_args (S i) qs r
  end.
Definition apply_pre (p : pre) (args : list V) : list V :=
  match p with
  | PNone => args
  | PQuant qs => quant_args 0 qs args
  | PDeq => map (fun v => if isq v then dequantize v else v) args
  end.

Definition path := list string.
(** the childless module at a path *)
Fixpoint clookup (t : ctree) (p : path) : option (pre * fn) :=
  match t, p with
  | CLeaf q f, [] => Some (q, f)
  | CNode cs, n :: r =>
      (fix go (l : list (string * ctree)) : option (pre * fn) :=
         match l with
         | [] => None
         | (k, c) :: l' => if String.eqb n k then clookup c r else go l'
         end) cs
  | _, _ => None
  end.

(** The forward of the model: values are numbered, the inputs first *)
Inductive instr := ICall (p : path) (args : list nat) | IFun (f : fn) (args : list nat).
Record program := mkProg { g_instrs : list instr; g_out : nat }.

Definition fetch (env : list V) (i : nat) : res V := match nth_error env i with Some v => Ok v | None => Raise NameError end.

(** one step; also reports which arguments of the called module are quantized, as the forward pre-hooks see them
    (lines 203-225) *)
Definition step (t : ctree) (env : list V) (i : instr) : res (list V * list (path * list bool)) :=
  match i with
  | ICall p a =>
      do args <- mapM (fetch env) a;
      match clookup t p with
      | None => Raise AttributeError
      | Some (q, f) => do v <- f (apply_pre q args); Ok ((env ++ [v])%list, [(p, map isq args)])
      end
  | IFun f a => do args <- mapM (fetch env) a; do v <- f args; Ok ((env ++ [v])%list, [])
  end.
Fixpoint run (t : ctree) (l : list instr) (env : list V) : res (list V * list (path * list bool)) :=
  match l with
  | [] => Ok (env, [])
  | i :: r => do er <- step t env i; do er' <- run t r (fst er); Ok (fst er', (snd er ++ snd er')%list)
  end.

Definition path_eqb (a b : path) : bool := if list_eq_dec string_dec a b then true else false.
(** the attribute set by the hook: by the last call *)
Definition seen (recs : list (path * list bool)) (p : path) : option (list bool) :=
  match find (fun e => path_eqb p (fst e)) (rev recs) with Some e => Some (snd e) | None => None end.

(** pytorch_quant_conversion.py:227-245 [cleanup]; [pfx]: path of the module *)
Definition clean_leaf (q : pre) (s : option (list bool)) : res pre :=
  match q, s with
  | PNone, _ => Ok PNone
  | _, None => Raise AttributeError
  | PQuant qs, Some bs =>
      let qs' := filter (fun e => negb (nth (fst e) bs false)) qs in
      Ok (match qs' with [] => PNone | _ => PQuant qs' end)
  | PDeq, Some bs => Ok (if existsb (fun b => b) bs then PDeq else PNone)
  end.
Fixpoint cleanup (recs : list (path * list bool)) (pfx : path) (t : ctree) : res ctree :=
  match t with
  | CLeaf q f => do q' <- clean_leaf q (seen recs pfx); Ok (CLeaf q' f)
  | CNode cs =>
      do cs' <- (fix go (l : list (string * ctree)) : res (list (string * ctree)) :=
                   match l with
                   | [] => Ok []
                   | (n, c) :: r => do c' <- cleanup recs (pfx ++ [n])%list c; do r' <- go r; Ok ((n, c') :: r')
                   end) cs;
      Ok (CNode cs')
  end.

(** The converted model: modules, and whether the output is de-quantized *)
Record cmodel := mkCm { m_tree : ctree; m_deq : bool }.

(** pytorch_quant_conversion.py:189-266 [_ptq_convert_pass_remove_redundant_quant_dequant], [patch_model_output_dequant] *)
Definition remove_redundant (t : ctree) (g : program) (dummy : list V) : res cmodel :=
  do er <- run t (g_instrs g) dummy;
  do out <- fetch (fst er) (g_out g);
  do t' <- cleanup (snd er) [] t;
  Ok (mkCm t' (isq out)).

(** pytorch_quant_conversion.py:266-328 [convert_distiller_ptq_model_to_pytorch].  [is_ptq]: the model's
    quantizer_metadata exists and names PostTrainLinearQuantizer.  The result's metadata is the given one with
    'pytorch_convert' and 'pytorch_convert_backend' set. *)
Definition engine_of (backend : string) : option engine :=
  if String.eqb backend "fbgemm" then Some FBGEMM else if String.eqb backend "qnnpack" then Some QNNPACK else None.
Definition convert_model (is_ptq : bool) (backend : string) (t : dtree) (g : program) (dummy : option (list V)) : res cmodel :=
  if negb is_ptq then Raise ValueError else
  match dummy with
  | None => Raise ValueError
  | Some d =>
      match engine_of backend with
      | None => Raise ValueError
      | Some eng => do c <- convert eng t; remove_redundant c g d
      end
  end.

(** the forward of the converted model (lines 189-197 when patched) *)
Definition run_model (m : cmodel) (g : program) (inputs : list V) : res V :=
  do er <- run (m_tree m) (g_instrs g) inputs;
  do out <- fetch (fst er) (g_out g);
  Ok (if m_deq m then dequantize out else out).
End Passes.
