(** Specification vocabulary for the feature-map reconstruction pruner: sampled positions, the
    squared error of a layer at them, and what a least-squares solver returns. *)
From Coq Require Import List QArith Bool Arith.
From Verif Require Import Base Lists StructModel FmModel.
Import ListNotations.
Open Scope nat_scope.

Definition sq (a : Q) : Q := (a * a)%Q.
Definition no_bias : nat -> Q := fun _ => 0%Q.

(** One forward pass while collecting: the input of the layer, the drawn rows and columns. *)
Record batch := mkB { b_x : fmap; b_rx : list nat; b_ry : list nat }.

(** Every sampled output position: input, image in it, row, column *)
Definition positions (bs : list batch) : list (fmap * nat * nat * nat) :=
  flat_map (fun b => flat_map (fun n => map (fun q => (b_x b, n, fst q, snd q)) (combine (b_rx b) (b_ry b)))
                              (seq 0 (fN (b_x b)))) bs.

(** The squared error, summed over the sampled positions and the [F] filters, of a convolution
    with weights [v] and no bias, against the layer with weights [p] and bias [bias] *)
Definition conv_err (g : geom) (F C : nat) (p : nd) (bias : nat -> Q) (bs : list batch) (v : nd) : Q :=
  qsum (map (fun q => match q with (x, n, i, j) =>
    qsum (tab F (fun f => sq (conv_at g F C (wt v) no_bias x n f i j - conv_at g F C (wt p) bias x n f i j))) end)
    (positions bs)).

(** The same for a fully connected layer: every row of every batch *)
Definition lin_positions (bs : list (list (nat -> Q))) : list (list (nat -> Q) * nat) :=
  flat_map (fun x => map (fun n => (x, n)) (seq 0 (length x))) bs.
Definition lin_err (F C : nat) (p : nd) (bias : nat -> Q) (bs : list (list (nat -> Q))) (v : nd) : Q :=
  qsum (map (fun q : list (nat -> Q) * nat => let (x, n) := q in
    qsum (tab F (fun f => sq (lin_at C (wt v) no_bias x n f - lin_at C (wt p) bias x n f)))) (lin_positions bs)).

(** Regression: [sse X B Y] is the sum of the squared residuals of Y against X B^T *)
Definition dot (a b : list Q) : Q := qsum (map2 Qmult a b).
Definition sse (X B Y : list (list Q)) : Q :=
  qsum (map2 (fun x y => qsum (map2 (fun b t => sq (dot x b - t)%Q) B y)) X Y).
Definition matrix (F m : nat) (B : list (list Q)) : Prop := length B = F /\ Forall (fun r => length r = m) B.
(** [B] is a least-squares solution with [F] rows and [m] columns *)
Definition least_squares (F m : nat) (X Y B : list (list Q)) : Prop :=
  matrix F m B /\ forall B', matrix F m B' -> (sse X B Y <= sse X B' Y)%Q.

(** The batches a layer can be sampled on: at least one; the same number of points in each; each
    input has the layer's channels; the draws are positions of the output *)
Definition drawn (g : geom) (C P : nat) (b : batch) : Prop :=
  fC (b_x b) = C /\ length (b_rx b) = P /\ length (b_ry b) = P /\
  Forall (fun i => i < out_h g (b_x b)) (b_rx b) /\ Forall (fun j => j < out_w g (b_x b)) (b_ry b).

(** The layers for which the samples are the right ones.  No dilation, no groups; a 1 x 1 kernel
    must have stride 1 and no padding; any other needs square outputs, and batches of more than one
    image, and more than one output position. *)
Definition plain (g : geom) : Prop := dh g = 1 /\ dw g = 1 /\ groups g = 1 /\ 0 < kh g /\ 0 < kw g.
Definition regular (g : geom) (x : fmap) : Prop :=
  if (kh g =? 1) && (kw g =? 1)
  then sh g = 1 /\ sw g = 1 /\ ph g = 0 /\ pw g = 0 /\ 0 < fH x /\ 0 < fW x
  else out_h g x = out_w g x /\ fN x <> 1 /\ 1 < out_h g x /\ 1 < fC x * (kh g * kw g).

(** [v] uses only the channels the binary map keeps *)
Definition uses_kept (F C h w : nat) (bm : list Q) (v : nd) : Prop :=
  forall f c i j, f < F -> c < C -> i < h -> j < w -> (nth c bm 0 == 0)%Q -> (wt v f c i j == 0)%Q.

(** The layer's weights once the mask is applied (param.data.mul_(mask)) *)
Definition masked (p m : nd) : nd := mkND (nd_shape p) (tmul (nd_data p) (nd_data m)).
