(** Model of the regularizers, distiller/regularization/{l1_regularizer,group_regularizer,drop_filter}.py.

    Weights are rational tensors (StructModel); the losses, which contain square roots, are real numbers.  Gradients are not
    modelled.  Dimensions are positive (torch's behaviour on empty tensors is not modelled). *)
From Coq Require Import String List ZArith QArith Qabs Qreals Reals Bool Arith.
From Verif Require Import Base Lists SchedModel PrunerModel StructModel CollModel.
Import ListNotations.
Local Open Scope string_scope.
Open Scope R_scope.

(** regularizer.py:18 *)
Definition epsilon : R := / 100000000.
Definition sq (x : R) : R := x * x.
Definition sumsq (l : list Q) : R := rsum (map (fun x => sq (Q2R x)) l).
(** t.norm(2) of one group *)
Definition norm2 (l : list Q) : R := sqrt (sumsq l).

(** l1_regularizer.py:27-32 [loss], 43-45 *)
Definition l1_loss (regims : dict Q) (t : nd) (name : string) (acc : R) : R :=
  match dget regims name with
  | None => acc
  | Some s => acc + rsum (map (fun x => Rabs (Q2R x)) (nd_data t)) * Q2R s
  end.
(** l1_regularizer.py:34-41 [threshold]: None: nothing is changed *)
Definition l1_threshold (regims : dict Q) (criteria : option string) (t : tensor) (name : string) : option tensor :=
  match criteria, dget regims name with
  | Some _, Some s => Some (create_mask_threshold_criterion t s)
  | _, _ => None
  end.

(** group_regularizer.py:94-99 [__grouplasso_reg] on the list of groups *)
Definition grouplasso_reg (groups : list (list Q)) (s : R) : R := rsum (map norm2 groups) * s.
(** group_regularizer.py:101-106 *)
Definition layerwise_reg (t : nd) (s : R) : res R :=
  if Nat.eqb (ndim t) 4 then Ok (norm2 (nd_data t) * s) else Raise AssertionError.
(** group_regularizer.py:108-116; t.view(n, -1) *)
Definition view_first (n : nat) (d : list Q) : res (list (list Q)) :=
  if Nat.eqb n 0 then Raise RuntimeError
  else if Nat.eqb (length d mod n) 0 then let g := (length d / n)%nat in Ok (tab n (fun i => tab g (fun j => nth (i * g + j) d 0%Q)))
  else Raise RuntimeError.
Definition filterwise_reg (t : nd) (s : R) : res R :=
  if Nat.eqb (ndim t) 4 then
    do n <- size t 0;
    do v <- view_first n (nd_data t);
    Ok (grouplasso_reg v s)
  else Raise AssertionError.
(** group_regularizer.py:128-154 [_channels_l2] *)
Definition channels_l2 (t : nd) : res (list R) :=
  do f <- size t 0;
  do c <- size t 1;
  do h <- size t 2;
  do w <- size t 3;
  do v <- view_rows (h * w) (nd_data t);
  let k_sq_sums := map sumsq v in
  if Nat.eqb (length k_sq_sums) (f * c) then
    let mat := tab c (fun j => tab f (fun i => nth (i * c + j) k_sq_sums 0)) in
    Ok (map (fun row => sqrt (rsum row + epsilon)) mat)
  else Raise RuntimeError.
(** group_regularizer.py:118-126 [_3d_channelwise_reg] *)
Definition channelwise_reg (t : nd) (s : R) : res R :=
  if Nat.eqb (ndim t) 4 then do l <- channels_l2 t; Ok (rsum l * s) else Raise AssertionError.
(** group_regularizer.py:156-164 *)
Definition rowwise_reg (t : nd) (s : R) : res R :=
  match nd_shape t with
  | [r; c] => Ok (grouplasso_reg (tab r (fun i => tab c (fun j => nth (i * c + j) (nd_data t) 0%Q))) s)
  | _ => Raise AssertionError
  end.
Definition colwise_reg (t : nd) (s : R) : res R :=
  match nd_shape t with
  | [r; c] => Ok (grouplasso_reg (tab c (col r c (nd_data t))) s)
  | _ => Raise AssertionError
  end.
(** group_regularizer.py:166-175 *)
Definition kernelwise_reg (t : nd) (s : R) : res R :=
  if Nat.eqb (ndim t) 4 then
    do h <- size t 2; do w <- size t 3;
    do v <- view_rows (h * w) (nd_data t);
    Ok (grouplasso_reg v s)
  else Raise AssertionError.

Definition str_in (s : string) (l : list string) : bool := existsb (String.eqb s) l.
(** group_regularizer.py:56-83 [GroupLassoRegularizer.loss]; line 78 calls __3d_channelwise_reg, which does not exist *)
Definition group_loss (regims : dict (Q * string)) (t : nd) (name : string) (acc : R) : res R :=
  match dget regims name with
  | None => Ok acc
  | Some (q, g) =>
      let s := Q2R q in
      if String.eqb g "2D" then do x <- kernelwise_reg t s; Ok (acc + x)
      else if String.eqb g "Rows" then do x <- rowwise_reg t s; Ok (acc + x)
      else if String.eqb g "Cols" then do x <- colwise_reg t s; Ok (acc + x)
      else if str_in g ["Rows+Cols"; "Cols+Rows"] then
        do x <- rowwise_reg t s;
        let acc := acc + x in
        do y <- colwise_reg t s;
        Ok (acc + y)
      else if String.eqb g "Channels" then do x <- channelwise_reg t s; Ok (acc + x)
      else if String.eqb g "Filters" || String.eqb g "3D" then do x <- filterwise_reg t s; Ok (acc + x)
      else if String.eqb g "4D" then do x <- layerwise_reg t s; Ok (acc + x)
      else if str_in g ["Channels+4D"; "4D+Channels"] then Raise AttributeError
      else Raise ValueError
  end.

(** group_regularizer.py:47-54: the constructor's check *)
Definition group_ctor (criteria : option string) : res unit :=
  match criteria with
  | None => Ok tt
  | Some c => if str_in c ["Max"; "Mean_Abs"] then Ok tt else Raise AssertionError
  end.
Definition crit_of (c : string) : crit := if String.eqb c "Max" then CMax else if String.eqb c "Mean_Abs" then CMean_Abs else COther.
(** thresholding.py:126 (the group types that are accepted), on the strings *)
Definition gtype_of (g : string) : gtype :=
  if String.eqb g "2D" then T2D else if String.eqb g "Rows" then TRows else if String.eqb g "Cols" then TCols else if String.eqb g "3D" then T3D
  else if String.eqb g "Filters" then TFilters else if String.eqb g "Channels" then TChannels else TBlocks.
(** group_regularizer.py:85-92 [threshold] *)
Definition group_threshold (l2 : list Q -> Q) (regims : dict (Q * string)) (criteria : option string) (t : nd) (name : string) : res (option nd) :=
  match criteria, dget regims name with
  | Some c, Some (s, g) => do m <- group_threshold_mask l2 t (gtype_of g) s (crit_of c); Ok (Some m)
  | _, _ => Ok None
  end.

(** t.var(): unbiased *)
Definition rmean (l : list R) : R := rsum l / INR (length l).
Definition rvar (l : list R) : R := rsum (map (fun x => sq (x - rmean l)) l) / INR (length l - 1).
(** group_regularizer.py:190-202 [GroupVarianceRegularizer.loss]; None: not a finite number (0/0 for one channel, 1/0 for equal
    norms) *)
Definition variance_loss (regims : dict (Q * string)) (t : nd) (name : string) (acc : R) : res (option R) :=
  match dget regims name with
  | None => Ok (Some acc)
  | Some (q, g) =>
      if String.eqb g "Channels" then
        do l <- channels_l2 t;
        Ok (if Nat.eqb (length l) 1 then None
            else if Req_EM_T (rvar l) 0 then None
            else Some (acc + Q2R q * (1 / rvar l)))
      else Raise ValueError
  end.

(* ------------------------------------------------------------------------- *)
(** * drop_filter.py *)

(** a forward pass of Conv2dWithMask, drop_filter.py:20-43: [sample] is the random draw; the new counter and the weights that are used.
    [max(0.2, nan)] is 0.2 (all weights zero). *)
Open Scope Q_scope.
Record mconv := mkMc { mc_training : bool; mc_freq : Z; mc_weight : nd }.
Definition filter_l1 (l : list (list Q)) : list Q := map l1_norm l.
Definition mask_forward (m : mconv) (sample : list Q) : res (mconv * nd) :=
  if mc_training m then
    let f := (mc_freq m - 1)%Z in
    if Z.eqb f 0 then
      let t := mc_weight m in
      do n <- size t 0;
      do v <- view_first n (nd_data t);
      let l1norm := qsum (filter_l1 v) in
      do a <- expand2 sample (numel (skipn 1 (nd_shape t))) n;
      let mask := transp (numel (skipn 1 (nd_shape t))) n a in
      let masked := map2 Qmult (nd_data t) mask in
      do vm <- view_first n masked;
      let factor := if Qeq_bool l1norm 0 then 1 # 5 else qmax (1 # 5) (qsum (filter_l1 vm) / l1norm) in
      Ok (mkMc true 16 t, mkND (nd_shape t) (map (fun x => x / factor) masked))
    else Ok (mkMc true f (mc_weight m), mc_weight m)
  else Ok (m, mc_weight m).

(** Modules for replace_conv2d, drop_filter.py:46-55: a convolution has its configuration, its parameters, and possibly children *)
Record conv := mkConv { cv_in : nat; cv_out : nat; cv_kernel : nat * nat; cv_stride : nat * nat; cv_pad : nat * nat; cv_dil : nat * nat; cv_groups : nat; cv_weight : list Q; cv_bias : option (list Q) }.
Inductive mtree := Tree (kind : option conv) (kids : list (string * mtree)).
Definition kids_of (t : mtree) := let 'Tree _ k := t in k.
(** [init]: the random initial weights of a new convolution.  bool(bias): of a tensor of one element only. *)
Section Replace.
Variable init : conv -> list Q * list Q.
Definition new_conv (c : conv) : res conv :=
  do b <- match cv_bias c with
          | None => Ok false
          | Some [x] => Ok (negb (Qeq_bool x 0))
          | Some _ => Raise RuntimeError
          end;
  let c' := mkConv (cv_in c) (cv_out c) (cv_kernel c) (cv_stride c) (cv_pad c) (1, 1)%nat 1 [] None in
  Ok (mkConv (cv_in c) (cv_out c) (cv_kernel c) (cv_stride c) (cv_pad c) (1, 1)%nat 1 (fst (init c')) (if b then Some (snd (init c')) else None)).
(** the recursion goes into the old module, whose children are not those of the new one *)
Fixpoint replace_kids (t : mtree) : res (list (string * mtree)) :=
  let 'Tree _ kids := t in
  (fix go l := match l with
               | [] => Ok []
               | (n, m) :: l =>
                   do m' <- match m with
                            | Tree (Some c) _ => do c' <- new_conv c; do _ <- replace_kids m; Ok (Tree (Some c') [])
                            | Tree None _ => do k <- replace_kids m; Ok (Tree None k)
                            end;
                   do l <- go l;
                   Ok ((n, m') :: l)
               end) kids.
Definition replace_conv2d (t : mtree) : res mtree :=
  do k <- replace_kids t; let 'Tree kind _ := t in Ok (Tree kind k).
End Replace.
