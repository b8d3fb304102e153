(** What the converted model must compute: directly on the modules of the given model. *)
From Coq Require Import String List ZArith QArith Bool Arith.
From Verif Require Import Base Lists StructModel QuantModel RangeModel PtqModel CvtModel.
Import ListNotations.

Section Spec.
Variables (V : Type) (isq : V -> bool) (quantize : Q * Z -> V -> V) (dequantize : V -> V).

Definition to_float (v : V) : V := if isq v then dequantize v else v.

(** the module at a path *)
Fixpoint dlookup (t : dtree V) (p : path) : option (kind V) :=
  match t, p with
  | DLeaf _ k, [] => Some k
  | DNode _ cs, n :: r =>
      (fix go (l : list (string * dtree V)) : option (kind V) :=
         match l with
         | [] => None
         | (k, c) :: l' => if String.eqb n k then dlookup c r else go l'
         end) cs
  | _, _ => None
  end.

(** argument number [i] of a quantized module: a float one with fallback parameters is quantized with them *)
Definition in_arg (eng : engine) (fb : list (nat * (Q * Q * Z * lqmode))) (i : nat) (v w : V) : Prop :=
  (isq v = true -> w = v) /\
  (isq v = false -> (forall e, In e fb -> fst e <> i) -> w = v) /\
  (isq v = false -> forall p bits m c, find (fun e => Nat.eqb (fst e) i) fb = Some (i, (p, bits, m)) ->
     qparams_to_pytorch [p] bits m QUInt8 (need_reduce_range eng m QUInt8) = Ok [c] -> w = quantize c v).

(** one call: a quantized module on its quantized arguments, any other module on float ones *)
Definition ref_call (eng : engine) (k : kind V) (args : list V) (r : res V) : Prop :=
  match k with
  | KWrap _ fb f => exists args', length args' = length args /\
      (forall i v w, nth_error args i = Some v -> nth_error args' i = Some w -> in_arg eng fb i v w) /\ r = f args'
  | KFake _ f | KLeaf _ f => r = f (map to_float args)
  | KEmb _ f => r = f args
  | KIdent _ => r = match args with [x] => Ok x | _ => Raise TypeError end
  end.

(** a run of the program *)
Inductive ref_run (eng : engine) (t : dtree V) : list (instr V) -> list V -> list V -> Prop :=
| R_nil env : ref_run eng t [] env env
| R_call p a args k v r env env' : mapM (fetch V env) a = Ok args -> dlookup t p = Some k -> ref_call eng k args (Ok v) ->
    ref_run eng t r (env ++ [v])%list env' -> ref_run eng t (ICall V p a :: r) env env'
| R_fun f a args v r env env' : mapM (fetch V env) a = Ok args -> f args = Ok v ->
    ref_run eng t r (env ++ [v])%list env' -> ref_run eng t (IFun V f a :: r) env env'.

(** functions for which being quantized does not depend on the data *)
Definition static_fn (f : fn V) : Prop :=
  forall a b u v, map isq a = map isq b -> f a = Ok u -> f b = Ok v -> isq u = isq v.
Definition kind_fn (k : kind V) : option (fn V) :=
  match k with KWrap _ _ f | KFake _ f | KEmb _ f | KLeaf _ f => Some f | KIdent _ => None end.
Definition static (t : dtree V) (g : program V) : Prop :=
  (forall p k f, dlookup t p = Some k -> kind_fn k = Some f -> static_fn f) /\
  (forall f a, In (IFun V f a) (g_instrs V g) -> static_fn f).

Definition calls (l : list (instr V)) : list path := flat_map (fun i => match i with ICall _ p _ => [p] | IFun _ _ _ => [] end) l.
End Spec.
