(** Model of the removal of layers from the CIFAR ResNets: distiller/thinning.py:555-580 (resnet_cifar_remove_layers) and
    distiller/models/cifar10/resnet_cifar.py:50-115 (BasicBlock, ResNetCifar).

    A parameter's name is given by its parts (name.split('.')); the only thing used of a parameter is whether
    distiller.density of it is 0 (exactly if all its elements are 0: C108). *)
From Coq Require Import String Ascii List ZArith QArith Bool Arith DecimalString.
From Verif Require Import Base.
Import ListNotations.
Local Open Scope string_scope.
Open Scope list_scope.
Open Scope nat_scope.

Definition gates := list (list (list bool)).

(** int(s) (signs, blanks and underscores, which Python also accepts, do not occur in the names of modules) *)
Definition int_of (s : string) : res Z :=
  match NilZero.uint_of_string s with Some d => Ok (Z.of_nat (Nat.of_uint d)) | None => Raise ValueError end.
(** s[-1], s[0] *)
Fixpoint last_char (s : string) : res string :=
  match s with EmptyString => Raise IndexError | String c EmptyString => Ok (String c EmptyString) | String _ s' => last_char s' end.
Definition first_char (s : string) : res string :=
  match s with EmptyString => Raise IndexError | String c _ => Ok (String c EmptyString) end.
(** l[i] for a non-negative literal i *)
Definition part (parts : list string) (i : nat) : res string :=
  match nth_error parts i with Some s => Ok s | None => Raise IndexError end.

(** the element a Python index stands for: negative ones count from the end *)
Definition pyidx (n : nat) (i : Z) : res nat :=
  if ((0 <=? i) && (i <? Z.of_nat n))%Z then Ok (Z.to_nat i)
  else if ((i <? 0) && (- Z.of_nat n <=? i))%Z then Ok (Z.to_nat (i + Z.of_nat n))
  else Raise IndexError.
Fixpoint put {A} (l : list A) (i : nat) (x : A) : list A :=
  match l, i with [], _ => [] | _ :: l', O => x :: l' | y :: l', S i' => y :: put l' i' x end.

(** layer_gates[layer][block][conv] = False; conv = None: the local variable has not been assigned yet *)
Definition close_gate (g : gates) (layer block : Z) (conv : option Z) : res gates :=
  do l <- pyidx (length g) layer;
  do b <- pyidx (length (nth l g [])) block;
  match conv with
  | None => Raise NameError
  | Some c =>
      do k <- pyidx (length (nth b (nth l g []) [])) c;
      Ok (put g l (put (nth l g []) b (put (nth b (nth l g []) []) k false)))
  end.

(** one turn of the loop, thinning.py:568-580; wrapped: the model is in DataParallel (it has an attribute module) *)
Definition remove_one (wrapped : bool) (st : gates * option Z) (parts : list string) : res (gates * option Z) :=
  let (g, conv) := st in
  do p1 <- part parts 1; do c1 <- last_char p1; do l1 <- int_of c1;
  let layer := (l1 - 1)%Z in
  do p2 <- part parts 2; do block <- int_of p2;
  do p3 <- part parts 3;
  do conv' <- (if String.eqb p3 "downsample"
               then do p4 <- part parts 4; do c4 <- first_char p4; do d <- int_of c4; Ok conv
               else do c3 <- last_char p3; do k <- int_of c3; Ok (Some (k - 1)%Z));
  if wrapped then do g' <- close_gate g layer block conv'; Ok (g', conv') else Raise AttributeError.

(** thinning.py:556-580: params are all the parameters of the model, in order, with whether they are all zero *)
Definition remove_layers (wrapped : bool) (params : list (list string * bool)) (g : gates) : res gates :=
  do st <- foldM (remove_one wrapped) (map fst (filter snd params)) (g, None); Ok (fst st).

(** resnet_cifar.py:86-104 (__init__) and 113-127 (_make_layer): gates and parameter names of a ResNet with n1, n2, n3
    blocks, in DataParallel; str(b) are the names of the blocks in their Sequential.  Only the first blocks of layers 2 and 3
    have a downsample (the numbers of planes are fixed) *)
Definition str (n : nat) : string := NilZero.string_of_uint (Nat.to_uint n).
Definition init_gates (ns : list nat) : gates := map (fun n => repeat [true; true] n) ns.
Definition block_names (layer : string) (b : nat) (downsample : bool) : list (list string) :=
  let pre := ["module"; layer; str b] in
  [pre ++ ["conv1"; "weight"]; pre ++ ["bn1"; "weight"]; pre ++ ["bn1"; "bias"];
   pre ++ ["conv2"; "weight"]; pre ++ ["bn2"; "weight"]; pre ++ ["bn2"; "bias"]] ++
  (if downsample then [pre ++ ["downsample"; "0"; "weight"]; pre ++ ["downsample"; "1"; "weight"]; pre ++ ["downsample"; "1"; "bias"]] else []).
Definition layer_names (layer : string) (n : nat) (downsample : bool) : list (list string) :=
  flat_map (fun b => block_names layer b (downsample && Nat.eqb b 0)) (seq 0 n).
Definition names (n1 n2 n3 : nat) : list (list string) :=
  [["module"; "conv1"; "weight"]; ["module"; "bn1"; "weight"]; ["module"; "bn1"; "bias"]] ++
  layer_names "layer1" n1 false ++ layer_names "layer2" n2 true ++ layer_names "layer3" n3 true ++
  [["module"; "fc"; "weight"]; ["module"; "fc"; "bias"]].

(** BasicBlock.forward, resnet_cifar.py:67-85, in evaluation mode; the layers are arbitrary functions on (flat) tensors *)
Definition relu (x : list Q) : list Q := map (fun q => if Qle_bool 0 q then q else 0%Q) x.
Definition block_forward (g : list bool) (conv1 bn1 conv2 bn2 : list Q -> list Q) (downsample : option (list Q -> list Q)) (x : list Q) : list Q :=
  let out := x in
  let out := if nth 0 g false then relu (bn1 (conv1 x)) else out in
  let out := if nth 1 g false then bn2 (conv2 out) else out in
  let residual := match downsample with Some d => d x | None => x end in
  relu (map2 Qplus residual out).
