(** Vocabulary for the properties of the final summary graph. *)
From Coq Require Import String Ascii List Bool Arith.
From Verif Require Import Base SgModel SgSpec PadModel.
Import ListNotations.
Open Scope list_scope.

(** the nodes of the trace with the names of their operations *)
Definition named (nodes : list tnode) : list (string * tnode) := combine (op_names nodes) nodes.
(** a padding directly followed by an average pooling of the same module *)
Definition pad_pool (p q : tnode) : bool :=
  String.eqb (n_type p) "Pad" && String.eqb (n_type q) "AveragePool" && String.eqb (n_module p) (n_module q).
(** each such pair as one average pooling, with the name and the inputs of the padding and the outputs of the pooling *)
Fixpoint collapse (l : list (string * tnode)) : list (string * tnode) :=
  match l with
  | (a, p) :: (((b, q) :: r) as l') =>
      if pad_pool p q then (a, mkNode (n_module q) (n_type q) (n_ins p) (n_outs q)) :: collapse r else (a, p) :: collapse l'
  | _ => l
  end.
(** the paddings that are merged have one input and one output, the poolings too; a padding followed by the average pooling of another
    module is not followed by a second average pooling *)
Definition tidy (nodes : list tnode) : Prop :=
  (forall i p q, nth_error nodes i = Some p -> nth_error nodes (S i) = Some q -> pad_pool p q = true ->
     exists x t u y, n_ins p = [x] /\ n_outs p = [t] /\ n_ins q = [u] /\ n_outs q = [y]) /\
  (forall i p q r, nth_error nodes i = Some p -> nth_error nodes (S i) = Some q -> nth_error nodes (S (S i)) = Some r ->
     n_type p = "Pad"%string -> n_type q = "AveragePool"%string -> pad_pool p q = false -> n_type r <> "AveragePool"%string).
(** operations [a] (padding) and [b] (pooling) are merged *)
Definition merged (nodes : list tnode) (a b : string) : Prop :=
  exists i p q, nth_error nodes i = Some p /\ nth_error nodes (S i) = Some q /\ pad_pool p q = true /\
    nth_error (op_names nodes) i = Some a /\ nth_error (op_names nodes) (S i) = Some b.
(** the result of a merged padding is consumed by its pooling only, and that pooling consumes nothing else; no other node produces
    the result of the padding *)
Definition private (nodes : list tnode) : Prop :=
  forall i p q, nth_error nodes i = Some p -> nth_error nodes (S i) = Some q -> pad_pool p q = true ->
    n_ins q = n_outs p /\
    (forall t j n, In t (n_outs p) -> nth_error nodes j = Some n -> In t (n_ins n) -> j = S i) /\
    (forall t j n, In t (n_outs p) -> nth_error nodes j = Some n -> In t (n_outs n) -> j = i).

(** the scopes ONNX leaves on the nodes of a trace: dropouts disappear, and the node before one gets its scope *)
Definition is_dropout (n : rnode) : Prop := r_kind n = "aten::dropout"%string.
Definition is_aten (n : rnode) : Prop := occurs "aten" (r_kind n) = true.
(** [s] is the scope of a node at position [i] after the optimisation: that of the last of the dropouts that directly follow it
    (nodes of other kinds, such as constants, in between), or its own *)
Definition onnx_scope (nodes : list rnode) (i : nat) (s : string) : Prop :=
  exists n, nth_error nodes i = Some n /\ is_aten n /\ ~ is_dropout n /\
  (s = r_scope n \/
   exists j d, i < j /\ nth_error nodes j = Some d /\ is_dropout d /\ s = r_scope d /\
     forall k m, i < k < j -> nth_error nodes k = Some m -> is_aten m -> is_dropout m).
(** a dropout's scope is its own *)
Definition own_dropouts (nodes : list rnode) : Prop :=
  forall i j a b, nth_error nodes i = Some a -> nth_error nodes j = Some b -> is_dropout a -> is_aten b -> r_scope a = r_scope b -> i = j.
