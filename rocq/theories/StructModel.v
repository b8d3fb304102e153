(** Model of structured thresholding, ranking and sparsity measures
    (distiller/thresholding.py, norms.py, pruning/ranked_structures_pruner.py,
    pruning/structure_pruner.py, utils.py).  A tensor is its shape and its elements in
    row-major order; torch's views, transpositions and expansions are index maps on it
    (strides, devices and dtypes are not modelled). *)
From Coq Require Import String List ZArith QArith Qabs Qround Bool Arith.
From Verif Require Import Base Lists SchedModel PrunerModel.
Import ListNotations.

Record nd := mkND { nd_shape : list nat; nd_data : list Q }.

Definition numel (sh : list nat) : nat := fold_right Nat.mul 1%nat sh.
Definition ndim (t : nd) : nat := length (nd_shape t).

(** [t.size(i)]: IndexError when there is no such dimension *)
Definition size (t : nd) (i : nat) : res nat :=
  match nth_error (nd_shape t) i with Some n => Ok n | None => Raise IndexError end.

(** [t.view(sh)]: same elements, RuntimeError when the element counts differ *)
Definition view (t : nd) (sh : list nat) : res nd :=
  if Nat.eqb (length (nd_data t)) (numel sh) then Ok (mkND sh (nd_data t)) else Raise RuntimeError.

(** [t.view(-1, g)] as the list of its rows *)
Definition view_rows (g : nat) (d : list Q) : res (list (list Q)) :=
  if Nat.eqb g 0 then Raise RuntimeError
  else if Nat.eqb (length d mod g) 0 then Ok (chunks g d) else Raise RuntimeError.

(** [b.expand(r, c)] of a 1-D tensor: [r] copies of [b] as rows (a 1-element tensor is
    repeated); RuntimeError when the sizes do not match *)
Definition expand2 (b : list Q) (r c : nat) : res (list Q) :=
  if Nat.eqb (length b) c then Ok (tab (r * c) (fun k => nth (k mod c) b 0))
  else if Nat.eqb (length b) 1 then Ok (tab (r * c) (fun _ => nth 0 b 0))
  else Raise RuntimeError.

(** [.t()] of an r x c matrix *)
Definition transp (r c : nat) (d : list Q) : list Q :=
  tab (c * r) (fun k => nth ((k mod r) * c + k / r) d 0).

(** [.unsqueeze(-1).expand(.., s)]: each element [s] times *)
Definition expand_last (s : nat) (d : list Q) : list Q :=
  tab (length d * s) (fun k => nth (k / s) d 0).

(** [.transpose(0, 1).contiguous()] of an a x b x s tensor *)
Definition transpose01 (a b s : nat) (d : list Q) : list Q :=
  tab (b * a * s) (fun k => nth (((k / s) mod a * b + k / (a * s)) * s + k mod s) d 0).

(** Column [j] of an r x c matrix *)
Definition col (r c : nat) (d : list Q) (j : nat) : list Q := tab r (fun i => nth (i * c + j) d 0).

Inductive gtype := T2D | TRows | TCols | T3D | TFilters | T4D | TChannels | TBlocks.
Inductive crit := CMean_Abs | CMean_L1 | CL1 | CMean_L2 | CL2 | CMax | COther.

(** norms.py:64-79: the L1 and Max norms; the L2 norm is irrational-valued and enters as a
    section variable, so every theorem holds for any function in its place. *)
Definition l1_norm (l : list Q) : Q := qsum (map Qabs l).
Definition qmax (a b : Q) : Q := if Qle_bool a b then b else a.
Definition max_norm (l : list Q) : Q :=
  match map Qabs l with [] => 0 | x :: r => fold_left qmax r x end.

(** norms.py:253-264 [generic_norm], on the list of structures *)
Definition generic_norm (structs : list (list Q)) (norm_fn : list Q -> Q) (group_size : nat)
           (length_normalized : bool) : list Q :=
  map (fun l => if length_normalized then norm_fn l / Zq (Z.of_nat group_size) else norm_fn l) structs.

(** norms.py:102-121 [kernels_norm] *)
Definition kernels_norm (p : nd) (norm_fn : list Q -> Q) (group_len : nat) (ln : bool) : res (list Q) :=
  if Nat.eqb (ndim p) 4 then
    let gs := (group_len * numel (skipn 2 (nd_shape p)))%nat in
    do v <- view_rows gs (nd_data p);
    Ok (generic_norm v norm_fn gs ln)
  else Raise AssertionError.

(** norms.py:213-230 [sub_matrix_norm]: [dim] is the reduced dimension. The divisor is
    group_len * size(abs(dim - 1)). *)
Definition sub_matrix_norm (p : nd) (norm_fn : list Q -> Q) (group_len : nat) (ln : bool) (dim : nat)
  : res (list Q) :=
  match nd_shape p with
  | [r; c] =>
      let gs := (group_len * (if Nat.eqb dim 1 then r else c))%nat in
      let structs := if Nat.eqb dim 1 then tab r (fun i => tab c (fun j => nth (i * c + j) (nd_data p) 0))
                     else tab c (col r c (nd_data p)) in
      Ok (generic_norm structs norm_fn gs ln)
  | _ => Raise AssertionError
  end.

(** norms.py:233-236, 239-240 *)
Definition rows_norm p norm_fn group_len ln := sub_matrix_norm p norm_fn group_len ln 1.
Definition cols_norm p norm_fn group_len ln := sub_matrix_norm p norm_fn group_len ln 0.

(** norms.py:141-171 [channels_norm] *)
Definition channels_norm (p : nd) (norm_fn : list Q -> Q) (group_len : nat) (ln : bool) : res (list Q) :=
  match nd_shape p with
  | [_; _] => cols_norm p norm_fn group_len ln
  | [a; b; h; w] =>
      let gs := (group_len * (a * (h * w)))%nat in
      do v <- view_rows gs (transpose01 a b (h * w) (nd_data p));
      Ok (generic_norm v norm_fn gs ln)
  | _ => Raise AssertionError
  end.

(** norms.py:193-210 [filters_norm] *)
Definition filters_norm (p : nd) (norm_fn : list Q -> Q) (group_len : nat) (ln : bool) : res (list Q) :=
  if Nat.eqb (ndim p) 4 then
    let gs := (group_len * numel (skipn 1 (nd_shape p)))%nat in
    do v <- view_rows gs (nd_data p);
    Ok (generic_norm v norm_fn gs ln)
  else Raise AssertionError.

(** thresholding.py:136-171 [expand_binary_map]; '4D' falls off the end and returns None,
    which the callers unpack (TypeError). *)
Definition expand_binary_map (p : nd) (g : gtype) (b : list Q) : res nd :=
  let g := match g with TChannels => if Nat.eqb (ndim p) 2 then TCols else g | _ => g end in
  match g with
  | T2D =>
      do s2 <- size p 2; do s3 <- size p 3; do s0 <- size p 0; do s1 <- size p 1;
      do a <- expand2 b (s2 * s3) (s0 * s1);
      view (mkND [(s0 * s1)%nat; (s2 * s3)%nat] (transp (s2 * s3) (s0 * s1) a)) (nd_shape p)
  | TRows =>
      do s1 <- size p 1; do s0 <- size p 0;
      do a <- expand2 b s1 s0;
      Ok (mkND [s0; s1] (transp s1 s0 a))
  | TCols =>
      match nd_shape p with
      | [r; c] => do a <- expand2 b r c; Ok (mkND [r; c] a)
      | _ => Raise RuntimeError   (* simplification: only 2-D parameters are modelled here *)
      end
  | T3D | TFilters =>
      do s0 <- size p 0;
      do a <- expand2 b (numel (skipn 1 (nd_shape p))) s0;
      view (mkND [s0; numel (skipn 1 (nd_shape p))] (transp (numel (skipn 1 (nd_shape p))) s0 a)) (nd_shape p)
  | TChannels =>
      do s0 <- size p 0; do s1 <- size p 1;
      do a <- expand2 b s0 s1;
      do s2 <- size p 2; do s3 <- size p 3;
      view (mkND [s0; s1; (s2 * s3)%nat] (expand_last (s2 * s3) a)) (nd_shape p)
  | T4D => Raise TypeError
  | TBlocks => Raise AssertionError
  end.

Section L2.
Variable l2_norm : list Q -> Q.   (* norms.py:75 *)

(** thresholding.py:66-75 *)
Definition crit_norm (c : crit) : res ((list Q -> Q) * bool) :=
  match c with
  | CMean_Abs | CMean_L1 => Ok (l1_norm, true)
  | CL1 => Ok (l1_norm, false)
  | CMean_L2 => Ok (l2_norm, true)
  | CL2 => Ok (l2_norm, false)
  | CMax => Ok (max_norm, false)
  | COther => Raise ValueError
  end.

(** thresholding.py:42-107 [group_threshold_binary_map]; an unknown group type leaves [norms]
    unbound. *)
Definition group_threshold_binary_map (p : nd) (g : gtype) (thr : Q) (c : crit) : res (list Q) :=
  do nf <- crit_norm c;
  do norms <-
    match g with
    | T2D => if Nat.eqb (ndim p) 4 then kernels_norm p (fst nf) 1 (snd nf) else Raise AssertionError
    | TRows => if Nat.eqb (ndim p) 2 then sub_matrix_norm p (fst nf) 1 (snd nf) 1 else Raise AssertionError
    | TCols => if Nat.eqb (ndim p) 2 then sub_matrix_norm p (fst nf) 1 (snd nf) 0 else Raise AssertionError
    | T3D | TFilters => if Nat.eqb (ndim p) 4 || Nat.eqb (ndim p) 3 then filters_norm p (fst nf) 1 (snd nf)
                        else Raise AssertionError
    | TChannels => if Nat.eqb (ndim p) 4 then channels_norm p (fst nf) 1 (snd nf) else Raise AssertionError
    | T4D | TBlocks => Raise NameError
    end;
  Ok (map (fun n => b2q (Qltb thr n)) norms).

(** thresholding.py:110-133 [group_threshold_mask] (without a given binary map) *)
Definition group_threshold_mask (p : nd) (g : gtype) (thr : Q) (c : crit) : res nd :=
  match g with
  | T4D | TBlocks => Raise AssertionError
  | _ => do b <- group_threshold_binary_map p g thr c; expand_binary_map p g b
  end.

(** structure_pruner.py:22-47 [StructureParameterPruner]: returns the new mask of parameter
    [n] ([None]: unchanged).  The constructor accepts only Max and Mean_Abs. *)
Definition structure_pruner (regims : dict (Q * gtype)) (c : crit) (n : string) (p : nd) : res (option nd) :=
  match c with
  | CMax | CMean_Abs =>
      match dget regims n with
      | None => Ok None
      | Some (thr, g) => do m <- group_threshold_mask p g thr c; Ok (Some m)
      end
  | _ => Raise AssertionError
  end.
End L2.

(* ------------------------------------------------------------------------- *)
(** norms.py:272-283 [num_structs_to_prune]; [rf] is the rounding function *)
Definition num_structs_to_prune (n group_len : nat) (f : Q) (rf : Q -> Z) : Z :=
  let n1 := rf (f * Zq (Z.of_nat n)) in
  let n2 := (rf (Zq n1 / Zq (Z.of_nat group_len))%Q * Z.of_nat group_len)%Z in
  if Z.eqb n2 (Z.of_nat n) && negb (Qeq_bool f 1) then (Z.of_nat n - Z.of_nat group_len)%Z else n2.

(** norms.py:298-308 [k_smallest_elems]; [noise] is the outcome of e_greedy_normal_noise: no
    noise ([None]) or one random multiplier per structure *)
Definition k_smallest_elems (mags : list Q) (k : Z) (noise : option (list Q)) : res (list Q * list Q) :=
  let mags := match noise with None => mags | Some ns => map2 Qmult mags ns end in
  do b <- topk_smallest mags k; Ok (b, mags).

(** norms.py:311-318 [rank_channels] *)
Definition rank_channels (p : nd) (group_len : nat) (mag : list Q -> Q) (f : Q) (rf : Q -> Z)
           (noise : option (list Q)) : res (option (list Q * list Q)) :=
  match nd_shape p with
  | [_; n] | [_; n; _; _] =>
      let k := num_structs_to_prune n group_len f rf in
      if Z.eqb k 0 then Ok None
      else do mags <- channels_norm p mag group_len true;
           do r <- k_smallest_elems mags k noise; Ok (Some r)
  | _ => Raise AssertionError
  end.

(** norms.py:321-328 [rank_filters] *)
Definition rank_filters (p : nd) (group_len : nat) (mag : list Q -> Q) (f : Q) (rf : Q -> Z)
           (noise : option (list Q)) : res (option (list Q * list Q)) :=
  match nd_shape p with
  | [n; _; _; _] =>
      let k := num_structs_to_prune n group_len f rf in
      if Z.eqb k 0 then Ok None
      else do mags <- filters_norm p mag group_len true;
           do r <- k_smallest_elems mags k noise; Ok (Some r)
  | _ => Raise AssertionError
  end.

(** the kept structures: magnitude above the k-th smallest
    (ranked_structures_pruner.py:156-157, 181-182, 264-265) *)
Definition keep_above (mags bottomk : list Q) : res (list Q) :=
  do thr <- last_elem bottomk; Ok (map (fun m => b2q (Qltb thr m)) mags).

(** Result of prune_group: the returned binary map (None when nothing was pruned) and the mask
    written into zeros_mask_dict (None when not written). *)
Definition pgres := (option (list Q) * option nd)%type.

(** ranked_structures_pruner.py:142-162 [rank_and_prune_channels]; [want] is
    "zeros_mask_dict is not None" *)
Definition rank_and_prune_channels (f : Q) (p : nd) (want : bool) (bm : option (list Q))
           (mag : list Q -> Q) (noise : option (list Q)) (group_size : nat) (rf : Q -> Z) : res pgres :=
  do bm' <- match bm with
            | Some b => Ok (Some b)
            | None => do r <- rank_channels p group_size mag f rf noise;
                      match r with
                      | None => Ok None
                      | Some (bottomk, mags) => do b <- keep_above mags bottomk; Ok (Some b)
                      end
            end;
  match bm' with
  | None => Ok (None, None)
  | Some b => if want then do m <- expand_binary_map p TChannels b; Ok (Some b, Some m)
              else Ok (Some b, None)
  end.

(** ranked_structures_pruner.py:164-186 [rank_and_prune_filters] *)
Definition rank_and_prune_filters (f : Q) (p : nd) (want : bool) (bm : option (list Q))
           (mag : list Q -> Q) (noise : option (list Q)) (group_size : nat) (rf : Q -> Z) : res pgres :=
  if Nat.eqb (ndim p) 4 || Nat.eqb (ndim p) 3 then
  do bm' <- match bm with
            | Some b => Ok (Some b)
            | None => do r <- rank_filters p group_size mag f rf noise;
                      match r with
                      | None => Ok None
                      | Some (bottomk, mags) => do b <- keep_above mags bottomk; Ok (Some b)
                      end
            end;
  match bm' with
  | None => Ok (None, None)
  | Some b => if want then do m <- expand_binary_map p TFilters b; Ok (Some b, Some m)
              else Ok (Some b, None)
  end
  else Raise AssertionError.

(** ranked_structures_pruner.py:225-234 and utils.py:297-310: the block view is
    v0 x v1 x v2 with blocks as columns (dimension 1) *)
Definition block_view (p : nd) (reps depth : nat) : res (nat * nat * nat) :=
  match nd_shape p with
  | [fi; ch; h; w] =>
      let n := length (nd_data p) in
      if Nat.ltb 1 depth then
        let v := ((fi * ch) / (reps * depth), reps * depth, h * w)%nat in
        if Nat.eqb n (fst (fst v) * snd (fst v) * snd v) then Ok v else Raise RuntimeError
      else
        let v0 := (fi / reps)%nat in
        if Nat.eqb (v0 * reps) 0 then Raise RuntimeError
        else if Nat.eqb (n mod (v0 * reps)) 0 then Ok (v0, reps, (n / (v0 * reps))%nat)
        else Raise RuntimeError
  | _ => Raise IndexError
  end.

(** Block (g, q) of the view: the elements (g, i, q) for all i *)
Definition block (d : list Q) (v : nat * nat * nat) (k : nat) : list Q :=
  let '(v0, v1, v2) := v in
  tab v1 (fun i => nth ((k / v2 * v1 + i) * v2 + k mod v2) d 0).

(** ranked_structures_pruner.py:247-251 [binary_map_to_mask] *)
Definition block_mask (p : nd) (v : nat * nat * nat) (b : list Q) : res nd :=
  let '(v0, v1, v2) := v in
  if Nat.eqb (length b) (v0 * v2) then
    view (mkND [v0; v1; v2] (tab (v0 * v1 * v2) (fun k => nth (k / (v1 * v2) * v2 + k mod v2) b 0))) (nd_shape p)
  else Raise RuntimeError.

(** ranked_structures_pruner.py:188-267 [rank_and_prune_blocks] *)
Definition rank_and_prune_blocks (f : Q) (p : nd) (want : bool) (bm : option (list Q))
           (block_shape : list nat) (mag : list Q -> Q) : res pgres :=
  match block_shape with
  | [reps; depth; bh; bw] =>
      if Nat.eqb bw 1 && Nat.eqb bh 1 then
        let vol := (reps * depth)%nat in
        if Nat.eqb vol 0 then Raise ZeroDivisionError else
        if Nat.eqb (length (nd_data p) mod vol) 0 then
          do v <- block_view p reps depth;
          do bm' <- match bm with
                    | Some b => Ok (Some b)
                    | None =>
                        let mags := tab (fst (fst v) * snd v) (fun k => mag (block (nd_data p) v k)) in
                        let k := py_int (f * Zq (Z.of_nat (length mags))) in
                        if Z.eqb k 0 then Ok None
                        else do bottomk <- topk_smallest mags k;
                             do b <- keep_above mags bottomk; Ok (Some b)
                    end;
          match bm' with
          | None => Ok (None, None)
          | Some b => if want then do m <- block_mask p v b; Ok (Some b, Some m) else Ok (Some b, None)
          end
        else Raise ValueError
      else Raise ValueError
  | _ => Raise ValueError
  end.

(** ranked_structures_pruner.py:108-119 constructor and 121-143
    [LpRankedStructureParameterPruner.prune_group]; the rounding function is always the
    default math.floor because prune_group does not forward self.rounding_fn. *)
Record lp_cfg := mkLp {
  lp_group : gtype; lp_weights : list string; lp_leader : bool;
  lp_size : nat; lp_blocks : list nat; lp_mag : list Q -> Q
}.

Definition lp_ctor (c : lp_cfg) : res lp_cfg :=
  match lp_weights c with
  | [] => Raise AssertionError
  | _ => match lp_group c with
         | T3D | TFilters | TChannels | TRows | TBlocks => Ok c
         | _ => Raise ValueError
         end
  end.

Definition prune_group (c : lp_cfg) (noise : option (list Q)) (f : Q) (p : nd) (want : bool)
           (bm : option (list Q)) : res pgres :=
  if Qeq_bool f 0 then Ok (None, None) else
  match lp_group c with
  | T3D | TFilters => rank_and_prune_filters f p want bm (lp_mag c) noise (lp_size c) Qfloor
  | TChannels | TRows => rank_and_prune_channels f p want bm (lp_mag c) noise (lp_size c) Qfloor
  | TBlocks => rank_and_prune_blocks f p want bm (lp_blocks c) (lp_mag c)
  | _ => Raise NameError
  end.

(** Mutable state of a ranked pruner: leader_binary_map and last_target_sparsity *)
Record lp_state := mkLpSt { ls_map : option (list Q); ls_last : option Q }.
Definition lp_init := mkLpSt None None.

Definition oq_eqb (a : Q) (b : option Q) : bool := match b with Some x => Qeq_bool a x | None => false end.

(** ranked_structures_pruner.py:76-96 [_set_param_mask_by_sparsity_target].  [weights] is
    model.state_dict(); the result is the new state and the new mask of [n] (None: unchanged) *)
Definition set_by_target (c : lp_cfg) (noise : option (list Q)) (st : lp_state) (weights : dict nd)
           (n : string) (p : nd) (target : Q) : res (lp_state * option nd) :=
  if existsb (String.eqb n) (lp_weights c) then
    do st' <-
      (if lp_leader c && negb (oq_eqb target (ls_last st)) then
         match lp_weights c with
         | [] => Raise IndexError
         | ld :: _ =>
             match dget weights ld with
             | None => Raise KeyError
             | Some lw => do r <- prune_group c noise target lw false None;
                          Ok (mkLpSt (fst r) (Some target))
             end
         end
       else Ok st);
    if lp_leader c then
      match ls_map st' with
      | None => Raise AssertionError
      | Some b => do r <- prune_group c noise target p true (Some b); Ok (st', snd r)
      end
    else do r <- prune_group c noise target p true None; Ok (st', snd r)
  else Ok (st, None).

(* ------------------------------------------------------------------------- *)
(** ranked_structures_pruner.py:310-317 [_mask_from_filter_order]: ones at the listed filters *)
Definition mask_from_filter_order (order : list nat) (p : nd) (n : nat) (bm : option (list Q))
  : res (nd * list Q) :=
  let b := match bm with
           | Some b => b
           | None => tab n (fun i => if existsb (Nat.eqb i) order then 1 else 0)
           end in
  do m <- expand_binary_map p TFilters b; Ok (m, b).

(** [l[:-k]] for k > 0 *)
Definition drop_last {A} (k : nat) (l : list A) : list A := firstn (length l - k) l.

(** ranked_structures_pruner.py:339-375 (activation), 418-437 (random), 477-507 (gradient): keep
    all but the last int(f * n) filters of an ordering.  [order] is the result of
    np.argsort / np.random.permutation: any ordering of 0..n-1 (see ActOrder in the
    specification). *)
Definition prune_by_order (order : list nat) (f : Q) (p : nd) (bm : option (list Q)) : res pgres :=
  match nd_shape p with
  | [n; _; _; _] =>
      let k := py_int (f * Zq (Z.of_nat n)) in
      if Qeq_bool f 0 then Ok (None, None)
      else if Z.eqb k 0 then Ok (None, None)
      else do r <- mask_from_filter_order (drop_last (Z.to_nat k) order) p n bm;
           Ok (Some (snd r), Some (fst r))
  | _ => if Qeq_bool f 0 then Ok (None, None) else Raise AssertionError
  end.

(** ranked_structures_pruner.py:454-475 (Bernoulli): [draw] is the outcome of torch.bernoulli;
    the mask is divided by the kept fraction *)
Definition prune_bernoulli (draw : list Q) (f : Q) (p : nd) (bm : option (list Q)) : res pgres :=
  if Qeq_bool f 0 then Ok (None, None) else
  match nd_shape p with
  | [n; _; _; _] =>
      let b := match bm with Some b => b | None => draw end in
      do r <- mask_from_filter_order [] p n (Some b);
      let factor := qsum b / Zq (Z.of_nat n) in
      Ok (Some b, Some (mkND (nd_shape (fst r)) (map (fun x => x / factor) (nd_data (fst r)))))
  | _ => Raise AssertionError
  end.

(* ------------------------------------------------------------------------- *)
(** utils.py:166-182 [density], 184-197 [sparsity] (a tensor without elements divides by 0) *)
Definition nonzero (l : list Q) : nat := countb (fun x => negb (Qeq_bool x 0)) l.
Definition ratio (a b : nat) : res Q :=
  if Nat.eqb b 0 then Raise ZeroDivisionError else Ok (Zq (Z.of_nat a) / Zq (Z.of_nat b)).

Definition density (d : list Q) : res Q := ratio (nonzero d) (length d).
Definition sparsity (d : list Q) : res Q := do x <- density d; Ok (1 - x).

(** utils.py:200-207 [sparsity_3D] *)
Definition sparsity_3D (t : nd) : res Q :=
  match nd_shape t with
  | [n; _; _; _] => do norms <- filters_norm t l1_norm 1 false;
                    do x <- ratio (nonzero norms) n; Ok (1 - x)
  | _ => Ok 0
  end.

(** utils.py:215-244 [sparsity_2D] *)
Definition sparsity_2D (t : nd) : res Q :=
  match nd_shape t with
  | [_; _; h; w] => do v <- view_rows (h * w) (nd_data t);
                    do x <- ratio (nonzero (map l1_norm v)) (length v); Ok (1 - x)
  | [r; c] => do norms <- sub_matrix_norm t l1_norm 1 false 1;
              do x <- ratio (nonzero norms) r; Ok (1 - x)
  | _ => Ok 0
  end.

(** utils.py:252-272 [non_zero_channels], [sparsity_ch] *)
Definition sparsity_ch (t : nd) : res Q :=
  match nd_shape t with
  | [_; c; _; _] => do norms <- channels_norm t l1_norm 1 false;
                    do x <- ratio (nonzero norms) c; Ok (1 - x)
  | _ => Ok 0
  end.

(** utils.py:280-318 [sparsity_blocks] *)
Definition sparsity_blocks (t : nd) (block_shape : list nat) : res Q :=
  match nd_shape t with
  | [_; _; _; _] =>
      match block_shape with
      | [reps; depth; bh; bw] =>
          if Nat.eqb bw 1 && Nat.eqb bh 1 then
            if Nat.eqb (reps * depth) 0 then Raise ZeroDivisionError else
            do v <- block_view t reps depth;
            let sums := tab (fst (fst v) * snd v) (fun k => l1_norm (block (nd_data t) v k)) in
            if Nat.eqb (length (nd_data t)) 0 then Raise ZeroDivisionError
            else Ok (1 - Zq (Z.of_nat (nonzero sums)) /
                         (Zq (Z.of_nat (length (nd_data t))) / Zq (Z.of_nat (reps * depth))))
          else Raise ValueError
      | _ => Raise ValueError
      end
  | _ => Raise ValueError
  end.

(** utils.py:321-362 [sparsity_matrix], [sparsity_cols], [sparsity_rows] *)
Definition sparsity_matrix (t : nd) (dim : nat) : res Q :=
  match nd_shape t with
  | [r; c] =>
      let n := if Nat.eqb dim 0 then r else c in
      let sums := if Nat.eqb dim 0 then tab r (fun i => l1_norm (tab c (fun j => nth (i * c + j) (nd_data t) 0)))
                  else tab c (fun j => l1_norm (col r c (nd_data t) j)) in
      do x <- ratio (nonzero sums) n; Ok (1 - x)
  | _ => Ok 0
  end.
Definition sparsity_cols (t : nd) (transposed : bool) := sparsity_matrix t (if transposed then 0 else 1)%nat.
Definition sparsity_rows (t : nd) (transposed : bool) := sparsity_matrix t (if transposed then 1 else 0)%nat.

(** utils.py:377-394 [model_params_stats]; the loop over the state_dict, each entry with the
    decision "dimension and name match" already taken *)
Definition model_params_stats (d : list (bool * list Q)) : res (Q * nat * Q) :=
  do acc <- foldM (fun (acc : nat * Q) (e : bool * list Q) =>
              if fst e then do x <- density (snd e);
                            Ok ((fst acc + length (snd e))%nat, snd acc + Zq (Z.of_nat (length (snd e))) * x)
              else Ok acc) d (0%nat, 0);
  if Nat.eqb (fst acc) 0 then Raise ZeroDivisionError
  else Ok ((1 - snd acc / Zq (Z.of_nat (fst acc))) * 100, fst acc, snd acc).
