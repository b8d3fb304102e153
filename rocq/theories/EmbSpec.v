(** Specification vocabulary for the embedding, floating-point and fake-quantization wrappers. *)
From Coq Require Import String List ZArith QArith Qabs Bool.
From Verif Require Import Base Lists QuantSpec RangeModel EmbModel.
Import ListNotations.

(** smallest and largest integer of a mode *)
Definition code_min (bits : Z) (m : lqmode) : Z :=
  match m with SYM | ASS => - 2 ^ (bits - 1) | SYMR => - (2 ^ (bits - 1) - 1) | ASU => 0 end%Z.
Definition code_max (bits : Z) (m : lqmode) : Z :=
  match m with SYM | ASS | SYMR => 2 ^ (bits - 1) - 1 | ASU => 2 ^ bits - 1 end%Z.

(** [q] is the integer that stands for the weight [w]: the nearest integer to scale * w - zero_point, limited to the
    range of the mode *)
Definition is_code (bits : Z) (m : lqmode) (par : Q * Q) (w : Q) (q : Z) : Prop :=
  exists z, is_round (fst par * w - snd par) z /\ q = Z.min (Z.max z (code_min bits m)) (code_max bits m).

(** [v] is the value the code of [w] stands for *)
Definition stored (bits : Z) (m : lqmode) (par : Q * Q) (w v : Q) : Prop :=
  exists q, is_code bits m par w q /\ v == (Zq q + snd par) / fst par.

(** histories in which the parameters are changed through the wrapper only, to a non-zero scale *)
Definition wrapper_op (o : emb_op) : Prop :=
  match o with
  | EoQuantizerSet _ _ => False
  | EoSet EScale v => ~ v == 0
  | _ => True
  end.
Definition changes (o : emb_op) : bool := match o with EoSet _ _ | EoClip _ | EoQuantizerSet _ _ => true | _ => false end.
(** no parameter is changed once the module has been moved to another device *)
Fixpoint no_change_after_move (ops : list emb_op) : Prop :=
  match ops with
  | [] => True
  | EoMove :: r => Forall (fun o => changes o = false) r
  | _ :: r => no_change_after_move r
  end.

(** * Nested values *)
(** the tensors of a value with their types, left to right *)
Fixpoint tensors (v : pyval) : list (dtype * list Q) :=
  match v with
  | VTen d t => [(d, t)]
  | VTup l | VList l | VNamed l => flat_map tensors l
  | VOther _ => []
  end.
(** the same value with the tensors left out *)
Fixpoint skeleton (v : pyval) : pyval :=
  match v with
  | VTen _ _ => VTen F32 []
  | VTup l => VTup (map skeleton l)
  | VList l => VList (map skeleton l)
  | VNamed l => VNamed (map skeleton l)
  | VOther n => VOther n
  end.
(** no tuple with named fields inside *)
Fixpoint no_named (v : pyval) : Prop :=
  match v with
  | VTup l | VList l => (fix go l := match l with [] => True | v :: l => no_named v /\ go l end) l
  | VNamed _ => False
  | _ => True
  end.
