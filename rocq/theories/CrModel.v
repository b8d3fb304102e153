(** Model of the creation of models (distiller/models/__init__.py) and of input shapes (distiller/utils.py:568-628).

    What the packages torchvision, pretrainedmodels and distiller.models contain is given: a name stands for something that can be
    called or not; calling it gives a network or an exception.  A network is its contents (an arbitrary type) and the few
    attributes that are looked at.  Messages, logging and devices are not modelled. *)
From Coq Require Import String Ascii List ZArith Bool Arith.
From Verif Require Import Base Lists Names.
Import ListNotations.
Local Open Scope string_scope.
Open Scope list_scope.

(** str.lower() (ASCII) *)
Definition lower_char (c : ascii) : ascii := let n := nat_of_ascii c in if Nat.leb 65 n && Nat.leb n 90 then ascii_of_nat (n + 32) else c.
Fixpoint lower (s : string) : string := match s with EmptyString => EmptyString | String c s => String (lower_char c) (lower s) end.
Definition mem (s : string) (l : list string) : bool := existsb (String.eqb s) l.

(** * Input shapes *)
Inductive shape := SInt (z : Z) | STup (l : list shape) | SOther.
Definition is_int (s : shape) : bool := match s with SInt _ => true | _ => false end.
Definition is_tup (s : shape) : bool := match s with STup _ => true | _ => false end.
Definition neg (s : shape) : bool := match s with SInt z => (z <? 0)%Z | _ => false end.
Definition ints (l : list Z) : shape := STup (map SInt l).
(** apputils/data_loaders.py:51-59 *)
Definition dataset_shape (d : string) : res shape :=
  if String.eqb d "imagenet" then Ok (ints [1; 3; 224; 224]%Z)
  else if String.eqb d "cifar10" then Ok (ints [1; 3; 32; 32]%Z)
  else if String.eqb d "mnist" then Ok (ints [1; 1; 28; 28]%Z)
  else Raise ValueError.
(** utils.py:580-587 [val_recurse], on the elements of a tuple *)
Definition mapM {A B} (f : A -> res B) : list A -> res (list B) :=
  fix go (l : list A) := match l with [] => Ok [] | a :: l => do b <- f a; do bs <- go l; Ok (b :: bs) end.
Fixpoint val_recurse (s : shape) : res shape :=
  match s with
  | STup l =>
      if forallb is_int l then (if existsb neg l then Raise ValueError else Ok (STup l))
      else if forallb is_tup l then do r <- mapM val_recurse l; Ok (STup r)
      else Raise TypeError
  | _ => Raise TypeError
  end.
(** lines 568-589; a data set named "" counts as none *)
Definition validate (dataset : option string) (sh : option shape) : res shape :=
  match dataset with
  | Some (String c s) => dataset_shape (String c s)
  | _ => match sh with
         | None => Raise ValueError
         | Some s => if is_tup s then val_recurse s else Raise TypeError
         end
  end.
(** lines 592-615 [get_dummy_input]: tensors (given by their shapes) in tuples.  torch.randn wants non-negative integers. *)
Inductive dummy := DTensor (dims : list Z) | DTup (l : list dummy).
Definition dims_of (l : list shape) : res (list Z) := mapM (fun s => match s with SInt z => if (z <? 0)%Z then Raise RuntimeError else Ok z | _ => Raise TypeError end) l.
Fixpoint create_recurse (s : shape) : res dummy :=
  match s with
  | STup l => if forallb is_int l then do d <- dims_of l; Ok (DTensor d) else do r <- mapM create_recurse l; Ok (DTup r)
  | _ => Raise TypeError
  end.
Definition get_dummy_input (dataset : option string) (sh : option shape) : res dummy := do s <- validate dataset sh; create_recurse s.

(** * Models *)
Section Create.
Variable K : Type.
(** [n_features]: the network has an attribute features; [n_shape]: its attribute input_shape, if any; [n_size]: its attribute
    input_size (a list) *)
Record net := mkNet { n_content : K; n_features : bool; n_shape : option shape; n_size : option (list Z) }.
(** the value of a name in a package: called without arguments, called with pretrained=..., or nothing that can be called *)
Inductive entry := ECall (f0 : res net) (fp : bool -> res net) | ENot.
Definition call0 (e : entry) : res net := match e with ECall f _ => f | ENot => Raise TypeError end.
Definition callp (e : entry) (pre : bool) : res net := match e with ECall _ f => f pre | ENot => Raise TypeError end.
(** the packages: torchvision (TORCHVISION_MODEL_NAMES; arguments: pretrained, whether transform_input=False is given),
    distiller.models.imagenet, .cifar10, .mnist (__dict__), pretrainedmodels (model_names) *)
Record packages := mkPkgs { p_tv : dict (bool -> bool -> res net); p_extra : dict entry; p_cadene : dict (bool -> res net); p_cifar : dict entry; p_mnist : dict entry;
  p_patch : net -> net }.                          (* patch_torchvision_mobilenet_v2 (lines 67-104) *)

(** models/__init__.py:38 *)
Definition SUPPORTED_DATASETS := ["imagenet"; "cifar10"; "mnist"].
(** lines 42-43 *)
Definition RESNET_SYMS := ["ResNet"; "resnet18"; "resnet34"; "resnet50"; "resnet101"; "resnet152"; "resnext50_32x4d"; "resnext101_32x8d"; "wide_resnet50_2"; "wide_resnet101_2"].
(** lines 161-165 *)
Definition is_inception (arch : string) : bool := mem arch ["inception_v3"; "googlenet"; "inceptionv3"; "inceptionv4"; "inceptionresnetv2"].

(** lines 168-204: the network and whether it is one of pretrainedmodels *)
Definition create_imagenet (P : packages) (arch : string) (pre : bool) : res (net * bool) :=
  do m <- (if mem arch RESNET_SYMS then
             match dget (p_extra P) arch with None => Raise KeyError | Some e => do n <- callp e pre; Ok (Some n) end
           else match dget (p_tv P) arch with
                | Some f =>
                    match f pre (is_inception arch) with
                    | Ok n => Ok (Some (if String.eqb arch "mobilenet_v2" then p_patch P n else n))
                    | Raise NotImplementedError => if pre then Ok None else Raise NotImplementedError
                    | Raise e => Raise e
                    end
                | None => Ok None
                end);
  match m with
  | Some n => Ok (n, false)
  | None =>
      do m <- (match dget (p_extra P) arch with
               | Some e => if pre then Ok None else do n <- call0 e; Ok (Some n)
               | None => Ok None end);
      match m with
      | Some n => Ok (n, false)
      | None => match dget (p_cadene P) arch with
                | Some f => do n <- f pre; Ok (n, true)
                | None => Raise ValueError
                end
      end
  end.
(** lines 207-223 *)
Definition create_small (d : dict entry) (arch : string) (pre : bool) : res net :=
  if pre then Raise ValueError
  else match (match dget d arch with None => Raise KeyError | Some e => call0 e end) with
       | Raise KeyError => Raise ValueError
       | r => r
       end.

(** lines 238-252: user models; [None]: registered as None *)
Definition extensions := list (string * string * option (res net)).
Definition same_key (a d : string) (x : string * string * option (res net)) : bool := String.eqb (fst (fst x)) a && String.eqb (snd (fst x)) d.
Definition register_user_model (E : extensions) (arch dataset : string) (f : option (res net)) : extensions :=
  (arch, dataset, f) :: filter (fun x => negb (same_key arch dataset x)) E.
Definition extension (E : extensions) (arch dataset : string) : option (res net) :=
  match find (same_key arch dataset) E with Some (_, f) => f | None => None end.

(** where torch.nn.DataParallel was put *)
Inductive placement := Plain | Features | Whole.
Record created := mkCreated { c_net : net; c_place : placement; c_parallel : bool; c_shape : shape; c_arch : string; c_dataset : string; c_cuda : bool }.

(** lines 111-142 *)
Definition create_network (P : packages) (E : extensions) (pre : bool) (dataset arch : string) : res (net * bool) :=
  let r := if String.eqb dataset "imagenet" then create_imagenet P arch pre
           else do n <- (if String.eqb dataset "cifar10" then create_small (p_cifar P) arch pre else create_small (p_mnist P) arch pre); Ok (n, false) in
  match r with
  | Raise ValueError => match extension E arch dataset with
                        | Some f => do n <- f; Ok (n, false)
                        | None => Raise ValueError
                        end
  | _ => r
  end.
(** lines 225-235, with utils.py:618-628: hasattr(model, 'input_shape') looks at the wrapper if there is one *)
Definition input_shape (n : net) (pl : placement) (arch dataset : string) (pre cadene : bool) : res shape :=
  let has := match pl with Whole => None | _ => n_shape n end in
  let set := fun d sh => match has with Some s => Ok s | None => validate d sh end in
  if cadene && pre then match n_size n with
                        | None => Raise AttributeError
                        | Some l => set None (Some (ints (1%Z :: l)))
                        end
  else if String.eqb arch "inception_v3" then set None (Some (ints [1; 3; 299; 299]%Z))
  else set (Some dataset) None.
(** lines 107-158; [cuda]: torch.cuda.is_available(); [ids]: None, or the number given if it is one (-1: CPU) *)
Definition create_model (P : packages) (E : extensions) (cuda pre : bool) (dataset arch : string) (parallel : bool) (ids : option Z) : res created :=
  let dataset := lower dataset in
  if negb (mem dataset SUPPORTED_DATASETS) then Raise ValueError
  else
    do r <- create_network P E pre dataset arch;
    let (n, cadene) := r in
    let gpu := cuda && negb (match ids with Some i => (i =? -1)%Z | None => false end) in
    let feat := startswith "alexnet" arch || startswith "vgg" arch in
    do pl <- (if gpu && parallel then (if feat then (if n_features n then Ok Features else Raise AttributeError) else Ok Whole) else Ok Plain);
    do sh <- input_shape n pl arch dataset pre cadene;
    Ok (mkCreated n pl (gpu && parallel) sh arch dataset gpu).
End Create.
Arguments mkNet {K}. Arguments n_content {K}. Arguments n_features {K}. Arguments n_shape {K}. Arguments n_size {K}.
Arguments ECall {K}. Arguments ENot {K}. Arguments call0 {K}. Arguments callp {K}.
Arguments mkPkgs {K}. Arguments p_tv {K}. Arguments p_extra {K}. Arguments p_cadene {K}. Arguments p_cifar {K}. Arguments p_mnist {K}. Arguments p_patch {K}.
Arguments create_imagenet {K}. Arguments create_small {K}. Arguments same_key {K}. Arguments register_user_model {K}. Arguments extension {K}.
Arguments mkCreated {K}. Arguments c_net {K}. Arguments c_place {K}. Arguments c_parallel {K}. Arguments c_shape {K}. Arguments c_arch {K}. Arguments c_dataset {K}. Arguments c_cuda {K}.
Arguments create_network {K}. Arguments input_shape {K}. Arguments create_model {K}.
