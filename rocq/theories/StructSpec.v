(** Specification vocabulary for structured tensors: coordinates and the elements of each
    structure. *)
From Coq Require Import String List ZArith QArith Bool Arith.
From Verif Require Import Base Lists StructModel.
Import ListNotations.

(** A well-formed tensor: as many elements as its shape says. *)
Definition nd_ok (t : nd) : Prop := length (nd_data t) = numel (nd_shape t).

(** Element (f, c, h, w) of a 4-D tensor with dimensions _ x C x H x W. *)
Definition at4 (t : nd) (C H W f c h w : nat) : Q :=
  nth (((f * C + c) * H + h) * W + w) (nd_data t) 0.
(** Element (i, j) of a matrix with [c] columns. *)
Definition at2 (t : nd) (c i j : nat) : Q := nth (i * c + j) (nd_data t) 0.

(** [for i in range(n): for x in f(i)] *)
Definition each {A} (n : nat) (f : nat -> list A) : list A := concat (tab n f).

(** The elements of kernel (f, c), of filter f, of input channel c, of row i, of column j. *)
Definition kernel (t : nd) (C H W f c : nat) : list Q :=
  each H (fun h => tab W (fun w => at4 t C H W f c h w)).
Definition filter_of (t : nd) (C H W f : nat) : list Q :=
  each C (fun c => kernel t C H W f c).
Definition channel_of (t : nd) (F C H W c : nat) : list Q :=
  each F (fun f => kernel t C H W f c).
Definition row_of (t : nd) (c i : nat) : list Q := tab c (fun j => at2 t c i j).
Definition col_of (t : nd) (r c j : nat) : list Q := tab r (fun i => at2 t c i j).

(** How many of the structures 0..n-1 satisfy a property. *)
Definition count_below (n : nat) (f : nat -> bool) : nat := countb f (seq 0 n).

(** All elements are zero. *)
Definition all_zero (l : list Q) : bool := forallb (fun x => Qeq_bool x 0) l.

(** [order] lists 0..n-1 in an order of increasing criterion. *)
Definition increasing (crit : nat -> Q) (order : list nat) : Prop :=
  forall i j, (i <= j)%nat -> (j < length order)%nat -> crit (nth i order 0%nat) <= crit (nth j order 0%nat).
Definition is_order (n : nat) (order : list nat) : Prop :=
  NoDup order /\ forall i, In i order <-> (i < n)%nat.

(** [removed] selects at least [k] of the structures 0..n-1, the ones with the smallest scores;
    exactly [k] when some bound separates exactly [k] of them from the others.  More than [k] are
    selected only because of ties: fewer than [k] structures score strictly less than a removed one. *)
Definition weakest (n k : nat) (score : nat -> Q) (removed : nat -> bool) : Prop :=
  (k <= count_below n removed)%nat /\
  (forall c, count_below n (fun i => Qle_bool (score i) c) = k -> count_below n removed = k) /\
  (forall i j, (i < n)%nat -> (j < n)%nat -> removed i = true -> removed j = false -> score i < score j) /\
  (forall i, (i < n)%nat -> removed i = true -> (count_below n (fun j => Qltb (score j) (score i)) < k)%nat).

(** Structure [i] is removed by a per-structure map. *)
Definition off (b : list Q) (i : nat) : bool := Qeq_bool (nth i b 0) 0.
Definition zero_one (b : list Q) : Prop := forall x, In x b -> x = 0 \/ x = 1.

(** A call of a ranked pruner for one parameter: the model's weights at that time, the
    parameter's name and value, the target sparsity and the ranking noise. *)
Record lcall := mkCall {
  lc_weights : dict nd; lc_name : string; lc_param : nd; lc_target : Q; lc_noise : option (list Q)
}.
Definition lstep (c : lp_cfg) (s : lp_state * list (option nd)) (k : lcall) : res (lp_state * list (option nd)) :=
  do r <- set_by_target c (lc_noise k) (fst s) (lc_weights k) (lc_name k) (lc_param k) (lc_target k);
  Ok (fst r, snd s ++ [snd r]).
(** Any sequence of calls; the results are the masks written (None: mask not touched). *)
Definition lcalls (c : lp_cfg) (h : list lcall) : res (lp_state * list (option nd)) :=
  foldM (lstep c) h (lp_init, []).

(** Blocks: [reps] consecutive filters at one position (c, h, w); [depth] consecutive channels
    of filter f at one position (h, w). *)
Definition fblock (t : nd) (C H W reps g c h w : nat) : list Q :=
  tab reps (fun i => at4 t C H W (g * reps + i) c h w).
Definition cblock (t : nd) (C H W depth f g h w : nat) : list Q :=
  tab depth (fun i => at4 t C H W f (g * depth + i) h w).
