(** What the regularizers compute: penalties of groups of weights. *)
From Coq Require Import String List QArith Qabs Qreals Reals Bool Arith.
From Verif Require Import Base Lists StructModel StructSpec.
Import ListNotations.
Open Scope R_scope.

Definition total (l : list R) : R := fold_right Rplus 0 l.
(** the Euclidean norm of a group of weights *)
Definition euclid (l : list Q) : R := sqrt (total (map (fun x => (Q2R x) ^ 2) l)).
(** group lasso *)
Definition lasso (strength : Q) (groups : list (list Q)) : R := Q2R strength * total (map euclid groups).

(** the groups of a convolution's weights *)
Definition kernels (t : nd) (F C H W : nat) : list (list Q) := each F (fun f => tab C (fun c => kernel t C H W f c)).
Definition filters (t : nd) (F C H W : nat) : list (list Q) := tab F (fun f => filter_of t C H W f).
Definition channels (t : nd) (F C H W : nat) : list (list Q) := tab C (fun c => channel_of t F C H W c).
Definition rows (t : nd) (r c : nat) : list (list Q) := tab r (fun i => row_of t c i).
Definition columns (t : nd) (r c : nat) : list (list Q) := tab c (fun j => col_of t r c j).

(** sample variance *)
Definition average (l : list R) : R := total l / INR (length l).
Definition variance (l : list R) : R := total (map (fun x => (x - average l) ^ 2) l) / INR (length l - 1).

(** * Dropping filters *)
From Verif Require Import RegModel.
Open Scope Q_scope.
(** the calls of a convolution: training or not, and the random draw *)
Fixpoint calls (m : mconv) (h : list (bool * list Q)) : res (list nd) :=
  match h with
  | [] => Ok []
  | (tr, sample) :: h =>
      do r <- mask_forward (mkMc tr (mc_freq m) (mc_weight m)) sample;
      do l <- calls (fst r) h;
      Ok (snd r :: l)
  end.
(** the number of training passes among the first [n] calls *)
Definition trained (h : list (bool * list Q)) (n : nat) : nat := length (filter (fun c => fst c) (firstn n h)).
(** the sum of absolute values of the filters, and of those that are kept *)
Definition mass (t : nd) (F C H W : nat) : Q := fold_right Qplus 0 (tab F (fun f => l1_norm (filter_of t C H W f))).
Definition kept (t : nd) (F C H W : nat) (sample : list Q) : Q := fold_right Qplus 0 (tab F (fun f => nth f sample 0 * l1_norm (filter_of t C H W f))).

(** replacing convolutions: the new ones keep channels, kernel, stride and padding only *)
Definition like (init : conv -> list Q * list Q) (c c' : conv) : Prop :=
  cv_in c' = cv_in c /\ cv_out c' = cv_out c /\ cv_kernel c' = cv_kernel c /\ cv_stride c' = cv_stride c /\ cv_pad c' = cv_pad c /\
  cv_dil c' = (1, 1)%nat /\ cv_groups c' = 1%nat /\
  cv_weight c' = fst (init (mkConv (cv_in c) (cv_out c) (cv_kernel c) (cv_stride c) (cv_pad c) (1, 1)%nat 1 [] None)).
Inductive replaced (init : conv -> list Q * list Q) : list (string * mtree) -> list (string * mtree) -> Prop :=
| r_nil : replaced init [] []
| r_conv n c kids c' l l' : like init c c' -> replaced init l l' -> replaced init ((n, Tree (Some c) kids) :: l) ((n, Tree (Some c') []) :: l')
| r_other n kids kids' l l' : replaced init kids kids' -> replaced init l l' -> replaced init ((n, Tree None kids) :: l) ((n, Tree None kids') :: l').
(** the convolutions below a list of modules *)
Inductive below : conv -> list (string * mtree) -> Prop :=
| b_here n c kids l : below c ((n, Tree (Some c) kids) :: l)
| b_down n k kids c l : below c kids -> below c ((n, Tree k kids) :: l)
| b_next x c l : below c l -> below c (x :: l).
