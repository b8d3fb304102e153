(** Specification of the removal of layers (C109). *)
From Coq Require Import String List Bool QArith DecimalString.
From Verif Require Import Base.
Import ListNotations.
Local Open Scope string_scope.
Open Scope list_scope.
Open Scope nat_scope.

Definition decimal (n : nat) : string := NilZero.string_of_uint (Nat.to_uint n).
(** the three layers, the two convolutions of a block, and the name of a convolution's weights *)
Definition layer_name (l : nat) : string := nth l ["layer1"; "layer2"; "layer3"] "".
Definition conv_name (c : nat) : string := nth c ["conv1"; "conv2"] "".
Definition weights_of (l b c : nat) : list string := ["module"; layer_name l; decimal b; conv_name c; "weight"].
Definition blocks (n1 n2 n3 l : nat) : nat := nth l [n1; n2; n3] 0.
(** the state of the gate of convolution c of block b of layer l (None: there is none) *)
Definition gate (g : list (list (list bool))) (l b c : nat) : option bool :=
  match nth_error g l with
  | Some x => match nth_error x b with Some y => nth_error y c | None => None end
  | None => None
  end.
Definition nonneg (x : list Q) : Prop := Forall (fun q => (0 <= q)%Q) x.
Definition same (x y : list Q) : Prop := Forall2 Qeq x y.
