(** Model of the feature-map reconstruction channel pruner
    (distiller/pruning/ranked_structures_pruner.py:518-728), of the collection of feature-map
    samples it needs (distiller/features_collector.py is
    examples/auto_compression/amc/utils/features_collector.py:43-80) and of its construction by
    the AMC environment (examples/auto_compression/amc/utils/net_wrapper.py:120-145).
    Numbers are exact rationals; devices and dtypes are not modelled.  A feature-map is its four
    sizes and the value at each position. *)
From Coq Require Import String List ZArith QArith Qabs Qround Bool Arith.
From Verif Require Import Base Lists SchedModel PrunerModel StructModel.
Import ListNotations.
Open Scope list_scope.
Open Scope nat_scope.

Record fmap := mkF { fN : nat; fC : nat; fH : nat; fW : nat; fAt : nat -> nat -> nat -> nat -> Q }.

(** the attributes of a Conv2d that matter: kernel, stride, padding, dilation (each a pair:
    first the rows, then the columns) and groups *)
Record geom := mkG { kh : nat; kw : nat; sh : nat; sw : nat; ph : nat; pw : nat; dh : nat; dw : nat; groups : nat }.

(** PyTorch: the number of output positions along one axis *)
Definition out_size (n k s p d : nat) : nat := (n + 2 * p - d * (k - 1) - 1) / s + 1.
Definition out_h (g : geom) (x : fmap) : nat := out_size (fH x) (kh g) (sh g) (ph g) (dh g).
Definition out_w (g : geom) (x : fmap) : nat := out_size (fW x) (kw g) (sw g) (pw g) (dw g).

(** PyTorch: the value at position (i, j) of the zero-padded input *)
Definition padded (g : geom) (x : fmap) (n c i j : nat) : Q :=
  if (ph g <=? i) && (i <? ph g + fH x) && (pw g <=? j) && (j <? pw g + fW x)
  then fAt x n c (i - ph g) (j - pw g) else 0%Q.

(** element (f, c, i, j) of a weights tensor of shape (F, C, kh, kw), or (F, C) with i = j = 0 *)
Definition wt (p : nd) (f c i j : nat) : Q :=
  match nd_shape p with
  | [_; C; h; w] => nth (((f * C + c) * h + i) * w + j) (nd_data p) 0%Q
  | [_; C] => nth (f * C + c) (nd_data p) 0%Q
  | _ => 0%Q
  end.

(** PyTorch F.conv2d at one output position: [F] filters, [Cg] channels per group *)
Definition conv_at (g : geom) (F Cg : nat) (w : nat -> nat -> nat -> nat -> Q) (bias : nat -> Q) (x : fmap)
           (n f oi oj : nat) : Q :=
  (bias f + qsum (tab Cg (fun c => qsum (tab (kh g) (fun i => qsum (tab (kw g) (fun j =>
     w f c i j * padded g x n (f / (F / groups g) * Cg + c) (oi * sh g + i * dh g) (oj * sw g + j * dw g))))))))%Q.

(** PyTorch F.unfold(x, kernel_size, stride, padding): the dilation argument is left at 1; value in
    column [col] (channel-major, then position in the kernel) of block [l] (row-major) *)
Definition unf_h (g : geom) (x : fmap) : nat := out_size (fH x) (kh g) (sh g) (ph g) 1.
Definition unf_w (g : geom) (x : fmap) : nat := out_size (fW x) (kw g) (sw g) (pw g) 1.
Definition unfold_at (g : geom) (x : fmap) (n col l : nat) : Q :=
  let K := kh g * kw g in
  let q := col mod K in
  padded g x n (col / K) (l / unf_w g x * sh g + q / kw g) (l mod unf_w g x * sw g + q mod kw g).

(** Samples of the input of a layer: per image, the value in a column at a sampled point *)
Record samples := mkS { s_cols : nat; s_pts : nat; s_at : list (nat -> nat -> Q) }.

Definition all_below (n : nat) (l : list nat) : bool := forallb (fun i => i <? n) l.
Definition nthn (l : list nat) (i : nat) : nat := nth i l 0.

(** ranked_structures_pruner.py:603-614: the output at the sampled points, one row per image and
    point, one column per filter *)
Definition y_rows (N P F : nat) (out : nat -> nat -> nat -> Q) : list (list Q) :=
  flat_map (fun n => tab P (fun p => tab F (fun f => out n f p))) (seq 0 N).

(** ranked_structures_pruner.py:567-619 [cache_featuremaps_fwd_hook] for a Conv2d; [rx], [ry] are
    the two draws of np.random.randint over output.size(2) and output.size(3) *)
Definition hook_conv (g : geom) (F Cg : nat) (w : nat -> nat -> nat -> nat -> Q) (bias : nat -> Q) (x : fmap)
           (rx ry : list nat) : res (samples * list (list Q)) :=
  let P := length rx in
  let Y := y_rows (fN x) P F (fun n f p => conv_at g F Cg w bias x n f (nthn rx p) (nthn ry p)) in
  if (kh g =? 1) && (kw g =? 1) then
    (* X[:, :, randx, randy]: the input at the drawn output coordinates *)
    if all_below (fH x) rx && all_below (fW x) ry then
      Ok (mkS (fC x) P (tab (fN x) (fun n => fun c p => fAt x n c (nthn rx p) (nthn ry p))), Y)
    else Raise IndexError
  else
    let L := unf_h g x * unf_w g x in
    let cols := fC x * (kh g * kw g) in
    (* .squeeze() drops every dimension of size 1; X[:, :, pts] then needs three dimensions *)
    if (fN x =? 1) || (cols =? 1) || (L =? 1) then Raise IndexError
    else
      let w_out := out_h g x in      (* output.size(2) *)
      let pts := map (fun p => nthn rx p * w_out + nthn ry p) (seq 0 P) in
      if all_below L pts then
        Ok (mkS cols P (tab (fN x) (fun n => fun col p => unfold_at g x n col (nthn pts p))), Y)
      else Raise IndexError.

(** torch.nn.Linear on a 2-D input *)
Definition lin_at (C : nat) (w : nat -> nat -> nat -> nat -> Q) (bias : nat -> Q) (x : list (nat -> Q)) (n f : nat) : Q :=
  (bias f + qsum (tab C (fun c => w f c 0%nat 0%nat * nth n x (fun _ => 0) c)))%Q.

(** the same hook for a Linear (ranked_structures_pruner.py:594-596): input and output as they are
    (one "point" per image) *)
Definition hook_fc (F C : nat) (w : nat -> nat -> nat -> nat -> Q) (bias : nat -> Q) (x : list (nat -> Q))
  : samples * list (list Q) :=
  (mkS C 1 (tab (length x) (fun n => fun c _ => nth n x (fun _ => 0%Q) c)),
   y_rows (length x) 1 F (fun n f _ => lin_at C w bias x n f)).

(** features_collector.py:43-80 [collect_intermediate_featuremap_samples], for one layer: run the
    hook on every batch in turn, then torch.cat along the first dimension *)
Definition cat (l : list (samples * list (list Q))) : res (samples * list (list Q)) :=
  match l with
  | [] => Raise RuntimeError
  | (s, _) :: _ =>
      if forallb (fun e => (s_cols (fst e) =? s_cols s) && (s_pts (fst e) =? s_pts s)) l
      then Ok (mkS (s_cols s) (s_pts s) (flat_map (fun e => s_at (fst e)) l), flat_map snd l)
      else Raise RuntimeError
  end.
Definition collect {B} (hook : B -> res (samples * list (list Q))) (bs : list B) : res (samples * list (list Q)) :=
  do l <- foldM (fun acc b => do e <- hook b; Ok (acc ++ [e])) bs [];
  cat l.

(** the indices of the channels to keep: binary_map.nonzero() *)
Definition kept (bm : list Q) : list nat := filter (fun c => negb (Qeq_bool (nth c bm 0%Q) 0)) (seq 0 (length bm)).

Inductive op := OpFc | OpConv (k : nat * nat).

(** ranked_structures_pruner.py:681-697: drop the columns of the pruned channels and put the
    samples in the shape of a regression matrix *)
Definition x_rows (o : op) (bm : list Q) (X : samples) : res (list (list Q)) :=
  let idx := kept bm in
  let m := length idx in
  match o with
  | OpFc =>
      if s_cols X =? length bm then
        Ok (flat_map (fun a : nat -> nat -> Q => tab (s_pts X) (fun p => map (fun c => a c p) idx)) (s_at X))
      else Raise IndexError
  | OpConv (1, 1) =>
      if s_cols X =? length bm then
        if m =? 0 then Raise RuntimeError (* .view(-1, 0) *)
        else Ok (flat_map (fun a : nat -> nat -> Q => tab (s_pts X) (fun p => map (fun c => a c p) idx)) (s_at X))
      else Raise IndexError
  | OpConv (k1, k2) =>
      let K := k1 * k2 in
      if (length (s_at X) =? 0) || (K =? 0) || (s_pts X =? 0) then Raise RuntimeError
      else if negb (s_cols X mod K =? 0) then Raise RuntimeError
      else if s_cols X / K =? length bm then
        if m =? 0 then Raise RuntimeError
        else Ok (flat_map (fun a : nat -> nat -> Q =>
                   tab (s_pts X) (fun p => tab (m * K) (fun j => a (nthn idx (j / K) * K + j mod K) p))) (s_at X))
      else Raise IndexError
  end.

(** ranked_structures_pruner.py:523-526 [_least_square_sklearn]: sklearn's LinearRegression
    without intercept refuses matrices without rows or columns and mismatched lengths; otherwise
    [solver] stands for its solution, one row of coefficients per filter *)
Definition fit (solver : list (list Q) -> list (list Q) -> list (list Q)) (X Y : list (list Q)) : res (list (list Q)) :=
  match X with
  | [] => Raise ValueError
  | r :: _ => if (length r =? 0) || negb (length X =? length Y) then Raise ValueError else Ok (solver X Y)
  end.

Fixpoint find_pos (c : nat) (l : list nat) : option nat :=
  match l with
  | [] => None
  | a :: l' => if Nat.eqb c a then Some 0 else option_map S (find_pos c l')
  end.

(** ranked_structures_pruner.py:704-714: param[:, indices] = new_w.view(F, m, kh, kw); the
    weights of the other channels stay *)
Definition write_back (p : nd) (idx : list nat) (coef : list (list Q)) : res nd :=
  let go (C K : nat) :=
    if forallb (fun r => length r =? length idx * K) coef then
      Ok (mkND (nd_shape p) (tab (length (nd_data p)) (fun i =>
            let c := i / K mod C in
            match find_pos c idx with
            | Some pos => nth (pos * K + i mod K) (nth (i / (K * C)) coef []) 0%Q
            | None => nth i (nd_data p) 0%Q
            end)))
    else Raise RuntimeError in
  match nd_shape p with
  | [F; C; h; w] => if length coef =? F then go C (h * w) else Raise RuntimeError
  | [F; C] => if length coef =? F then go C 1 else Raise RuntimeError
  | _ => Raise RuntimeError
  end.

(** what the pruner leaves behind: the returned binary map, the weights, the mask (when asked) *)
Definition outcome := option (list Q * nd * option nd).

(** model.intermediate_fms: absent before the samples were collected; per layer otherwise *)
Definition fms := option (dict (samples * list (list Q))).

(** ranked_structures_pruner.py:644-728 [rank_and_prune_channels]; [bm0]: the binary map handed
    in; [want]: "zeros_mask_dict is not None"; [kernel]: the kernel_size of the layer *)
Definition rank_and_reconstruct (solver : list (list Q) -> list (list Q) -> list (list Q)) (fraction : Q) (p : nd)
           (layer : string) (kernel : nat * nat) (want : bool) (model : fms) (bm0 : option (list Q))
           (mag : list Q -> Q) (group_size : nat) (rf : Q -> Z) (noise : option (list Q)) : res outcome :=
  match bm0 with
  | Some _ => Raise AssertionError
  | None =>
      do r <- rank_channels p group_size mag fraction rf noise;
      match r with
      | None => Ok None
      | Some (bottomk, mags) =>
          do bm <- keep_above mags bottomk;
          match model with
          | None => Raise ValueError
          | Some d =>
              match dget d layer with
              | None => Raise KeyError
              | Some (X, Y) =>
                  let o := if Nat.eqb (ndim p) 4 then OpConv kernel else OpFc in
                  do rows <- x_rows o bm X;
                  do coef <- fit solver rows Y;
                  do p' <- write_back p (kept bm) coef;
                  if want then do m <- expand_binary_map p' TChannels bm; Ok (Some (bm, p', Some m))
                  else Ok (Some (bm, p', None))
              end
          end
      end
  end.

(** The configured pruner (ranked_structures_pruner.py:621-631); the constructor's parameters in
    their order after name, group_type, desired_sparsity and weights *)
Record fm_pruner := mkP { fp_group_dependency : option nat; fp_kwargs : bool; fp_mag : list Q -> Q;
                          fp_group_size : nat; fp_round : Q -> Z; fp_noise : option (list Q) }.

(** ranked_structures_pruner.py:633-642 [prune_group]: the magnitude function is not handed on *)
Definition fm_prune_group solver (c : fm_pruner) (fraction : Q) (p : nd) (layer : string) (kernel : nat * nat)
           (want : bool) (model : fms) (bm : option (list Q)) : res outcome :=
  if Qeq_bool fraction 0 then Ok None
  else rank_and_reconstruct solver fraction p layer kernel want model bm l1_norm (fp_group_size c) (fp_round c) (fp_noise c).

(** net_wrapper.py:133-137: FMReconstructionChannelPruner("auto_pruner", group_type, fraction,
    conv_pname, group_size, math.ceil, ranking_noise=..): the two positional arguments land on
    group_dependency and kwargs; group_size, rounding_fn and magnitude_fn take their defaults *)
Definition amc_pruner (group_size : nat) (noise : option (list Q)) : fm_pruner :=
  mkP (Some group_size) true l1_norm 1 Qfloor noise.
