(** Specification of rebuilding a quantizer (C104). *)
From Coq Require Import String List ZArith Bool.
From Verif Require Import Base RebModel.
Import ListNotations.
Local Open Scope string_scope.
Open Scope list_scope.

(** an argument as given, or its default *)
Definition given (kw : env) (k : string) (default : pv) : pv := match dget kw k with Some v => v | None => default end.
(** two quantizers that differ at most in the optimizer and some named settings *)
Definition same_but (ks : list string) (q q' : quant) : Prop :=
  q_type q = q_type q' /\ q_default q = q_default q' /\ q_over q = q_over q' /\ q_copy q = q_copy q' /\
  forall k, ~ In k ks -> dget (q_set q) k = dget (q_set q') k.
Definition is_dict (v : pv) : Prop := match v with VNone | VDict _ | VODict _ => True | _ => False end.
(** the entries of an override *)
Definition entries (v : pv) : env := match v with VDict d | VODict d => d | _ => [] end.
