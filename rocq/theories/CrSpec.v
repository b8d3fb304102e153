(** Specification of the creation of models (C100) and of input shapes (C101). *)
From Coq Require Import String Ascii List ZArith Bool Arith.
From Verif Require Import Base CrModel.
Import ListNotations.
Local Open Scope string_scope.
Open Scope list_scope.

(** * Input shapes: a tuple of non-negative integers, or a tuple of such shapes *)
Inductive valid_shape : shape -> Prop :=
| vs_tensor l : Forall (fun z => (0 <= z)%Z) l -> valid_shape (STup (map SInt l))
| vs_tuple l : Forall valid_shape l -> valid_shape (STup l).
(** inputs of this shape *)
Inductive shaped : shape -> dummy -> Prop :=
| sh_tensor l : shaped (STup (map SInt l)) (DTensor l)
| sh_tuple l r : l <> [] -> Forall2 shaped l r -> shaped (STup l) (DTup r).

(** * Where a network comes from *)
Section Spec.
Variable K : Type.
Notation packages := (packages K). Notation net := (net K).
Definition own_resnets := ["ResNet"; "resnet18"; "resnet34"; "resnet50"; "resnet101"; "resnet152"; "resnext50_32x4d"; "resnext101_32x8d"; "wide_resnet50_2"; "wide_resnet101_2"].
Inductive origin := FromTorchvision | FromDistiller | FromCadene | FromUser.
(** torchvision has no such model, or no trained one although one is wanted *)
Definition not_in_torchvision (P : packages) (pre : bool) (arch : string) : Prop :=
  ~ In arch own_resnets /\ (dget (p_tv P) arch = None \/ pre = true /\ exists f, dget (p_tv P) arch = Some f /\ f true (is_inception arch) = Raise NotImplementedError).
Inductive builtin (P : packages) (pre : bool) : string -> string -> origin -> net -> Prop :=
| b_resnet arch e n : In arch own_resnets -> dget (p_extra P) arch = Some e -> callp e pre = Ok n -> builtin P pre "imagenet" arch FromDistiller n
| b_torchvision arch f n : ~ In arch own_resnets -> dget (p_tv P) arch = Some f -> f pre (is_inception arch) = Ok n ->
    builtin P pre "imagenet" arch FromTorchvision (if String.eqb arch "mobilenet_v2" then p_patch P n else n)
| b_extra arch e n : pre = false -> not_in_torchvision P pre arch -> dget (p_extra P) arch = Some e -> call0 e = Ok n -> builtin P pre "imagenet" arch FromDistiller n
| b_cadene arch f n : not_in_torchvision P pre arch -> (pre = true \/ dget (p_extra P) arch = None) -> dget (p_cadene P) arch = Some f -> f pre = Ok n ->
    builtin P pre "imagenet" arch FromCadene n
| b_cifar arch e n : pre = false -> dget (p_cifar P) arch = Some e -> call0 e = Ok n -> builtin P pre "cifar10" arch FromDistiller n
| b_mnist arch e n : pre = false -> dget (p_mnist P) arch = Some e -> call0 e = Ok n -> builtin P pre "mnist" arch FromDistiller n.
(** no model of that name (trained, if wanted) in the packages *)
Inductive absent (P : packages) (pre : bool) : string -> string -> Prop :=
| a_imagenet arch : not_in_torchvision P pre arch -> (pre = true \/ dget (p_extra P) arch = None) -> dget (p_cadene P) arch = None -> absent P pre "imagenet" arch
| a_cifar arch : pre = true \/ dget (p_cifar P) arch = None -> absent P pre "cifar10" arch
| a_mnist arch : pre = true \/ dget (p_mnist P) arch = None -> absent P pre "mnist" arch.
End Spec.
Arguments builtin {K}. Arguments absent {K}. Arguments not_in_torchvision {K}.
