(** Model of the gradients of the regularization losses: distiller/regularization/l1_regularizer.py:27-32, 43-45 and
    group_regularizer.py:56-83, 94-175, as compositions of PyTorch operations with their backward functions
    (derivatives.yaml of PyTorch 1.3), and of the update by SGD without momentum.

    A tensor is its number of elements, the element at each position of its row-major order, and the map from the
    gradient of the loss with respect to it to the gradient with respect to the weights.  Real numbers.  Dimensions
    are positive.  Losses without gradients over rational weights, thresholds and masks: RegModel (C45). *)
From Coq Require Import String List Reals Arith Bool.
From Verif Require Import Base.
Import ListNotations.
Local Open Scope string_scope.
Open Scope list_scope.
Open Scope R_scope.

Fixpoint sumn (n : nat) (f : nat -> R) : R := match n with O => 0 | S k => sumn k f + f k end.

Record tns := mkT { num : nat; at_ : nat -> R; bk : (nat -> R) -> (nat -> R) }.
Definition leaf (n : nat) (x : nat -> R) : tns := mkT n x (fun g => g).

(** element-wise functions with their derivatives *)
Definition pointwise (f d : R -> R) (t : tns) : tns :=
  mkT (num t) (fun p => f (at_ t p)) (fun g => bk t (fun p => g p * d (at_ t p))).
Definition sgn (x : R) : R := if Rlt_dec 0 x then 1 else if Rlt_dec x 0 then -1 else 0.
Definition tabs : tns -> tns := pointwise Rabs sgn.
Definition pow2 : tns -> tns := pointwise (fun x => x * x) (fun x => 2 * x).
Definition addc (k : R) : tns -> tns := pointwise (fun x => x + k) (fun _ => 1).
Definition mulc (k : R) : tns -> tns := pointwise (fun x => x * k) (fun _ => k).
(** t.pow(1/2.) *)
Definition powhalf : tns -> tns := pointwise sqrt (fun x => / (2 * sqrt x)).

(** t.sum(); t.view(r, c).sum(dim=1) *)
Definition sum_all (t : tns) : tns := mkT 1 (fun _ => sumn (num t) (at_ t)) (fun g => bk t (fun _ => g 0%nat)).
Definition sum_dim1 (r c : nat) (t : tns) : tns :=
  mkT r (fun i => sumn c (fun j => at_ t (i * c + j)%nat)) (fun g => bk t (fun p => g (p / c)%nat)).
(** t.view(r, c).t() *)
Definition transp (r c : nat) (t : tns) : tns :=
  mkT (num t) (fun q => at_ t ((q mod r) * c + q / r)%nat) (fun g => bk t (fun p => g ((p mod c) * r + p / c)%nat)).

(** norm(2), norm(2, dim=1), norm(2, dim=0) of a matrix r x c; the gradient is x / norm, and 0 where the norm is 0
    (norm_backward masks the division) *)
Definition norm_grad (x n g : R) : R := if Req_EM_T n 0 then 0 else g * (x / n).
Definition sq (x : R) : R := x * x.
Definition norm_all (t : tns) : tns :=
  let n := sqrt (sumn (num t) (fun p => sq (at_ t p))) in
  mkT 1 (fun _ => n) (fun g => bk t (fun p => norm_grad (at_ t p) n (g 0%nat))).
Definition norm_dim1 (r c : nat) (t : tns) : tns :=
  let n i := sqrt (sumn c (fun j => sq (at_ t (i * c + j)%nat))) in
  mkT r n (fun g => bk t (fun p => norm_grad (at_ t p) (n (p / c)%nat) (g (p / c)%nat))).
Definition norm_dim0 (r c : nat) (t : tns) : tns :=
  let n j := sqrt (sumn r (fun i => sq (at_ t (i * c + j)%nat))) in
  mkT c n (fun g => bk t (fun p => norm_grad (at_ t p) (n (p mod c)%nat) (g (p mod c)%nat))).

(** loss += x *)
Definition plus_ (a b : tns) : tns := mkT 1 (fun _ => at_ a 0%nat + at_ b 0%nat) (fun g p => bk a g p + bk b g p).
(** the loss so far, which does not depend on this parameter *)
Definition const (v : R) : tns := mkT 1 (fun _ => v) (fun _ _ => 0).

(** l1_regularizer.py:27-32, 43-45: var.abs().sum() * strength; [strength]: None if the parameter is not regularized *)
Definition l1_loss (strength : option R) (t : tns) (acc : tns) : tns :=
  match strength with None => acc | Some s => plus_ acc (mulc s (sum_all (tabs t))) end.

(** group_regularizer.py:156-164: rows and columns, assert dim() == 2 *)
Definition rowwise (shape : list nat) (t : tns) (s : R) : res tns :=
  match shape with [r; c] => Ok (mulc s (sum_all (norm_dim1 r c t))) | _ => Raise AssertionError end.
Definition colwise (shape : list nat) (t : tns) (s : R) : res tns :=
  match shape with [r; c] => Ok (mulc s (sum_all (norm_dim0 r c t))) | _ => Raise AssertionError end.
(** lines 166-175: view(-1, h * w), norm over dim 1 *)
Definition kernelwise (shape : list nat) (t : tns) (s : R) : res tns :=
  match shape with [f; c; h; w] => Ok (mulc s (sum_all (norm_dim1 (f * c) (h * w) t))) | _ => Raise AssertionError end.
(** lines 108-116: view(f, -1), norm over dim 1 *)
Definition filterwise (shape : list nat) (t : tns) (s : R) : res tns :=
  match shape with [f; c; h; w] => Ok (mulc s (sum_all (norm_dim1 f (c * h * w) t))) | _ => Raise AssertionError end.
(** lines 101-106: groups.norm(2) * strength *)
Definition layerwise (shape : list nat) (t : tns) (s : R) : res tns :=
  match shape with [f; c; h; w] => Ok (mulc s (norm_all t)) | _ => Raise AssertionError end.
(** regularizer.py:18; lines 128-154 [_channels_l2] *)
Definition epsilon : R := / 100000000.
Definition channels_l2 (f c h w : nat) (t : tns) : tns :=
  let k_sq_sums := sum_dim1 (f * c) (h * w) (pow2 t) in
  let k_sq_sums_mat := transp f c k_sq_sums in
  powhalf (addc epsilon (sum_dim1 c f k_sq_sums_mat)).
(** lines 118-126 *)
Definition channelwise (shape : list nat) (t : tns) (s : R) : res tns :=
  match shape with [f; c; h; w] => Ok (mulc s (sum_all (channels_l2 f c h w t))) | _ => Raise AssertionError end.

(** lines 56-83 [GroupLassoRegularizer.loss] *)
Definition in_ (s : string) (l : list string) : bool := existsb (String.eqb s) l.
Definition group_loss (regim : option (R * string)) (shape : list nat) (t acc : tns) : res tns :=
  match regim with
  | None => Ok acc
  | Some (s, g) =>
      if String.eqb g "2D" then do x <- kernelwise shape t s; Ok (plus_ acc x)
      else if String.eqb g "Rows" then do x <- rowwise shape t s; Ok (plus_ acc x)
      else if String.eqb g "Cols" then do x <- colwise shape t s; Ok (plus_ acc x)
      else if in_ g ["Rows+Cols"; "Cols+Rows"] then
        do x <- rowwise shape t s;
        do y <- colwise shape t s;
        Ok (plus_ (plus_ acc x) y)
      else if String.eqb g "Channels" then do x <- channelwise shape t s; Ok (plus_ acc x)
      else if String.eqb g "Filters" || String.eqb g "3D" then do x <- filterwise shape t s; Ok (plus_ acc x)
      else if String.eqb g "4D" then do x <- layerwise shape t s; Ok (plus_ acc x)
      else if in_ g ["Channels+4D"; "4D+Channels"] then Raise AttributeError
      else Raise ValueError
  end.

(** loss.backward(): the gradient of the weights; SGD's step without momentum and weight decay *)
Definition gradient (loss : tns) : nat -> R := bk loss (fun _ => 1).
Definition sgd (eta : R) (w g : nat -> R) : nat -> R := fun p => w p - eta * g p.
