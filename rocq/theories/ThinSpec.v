(** Vocabulary for the statements about thinning (C23, C24, C56), independent of the model's functions. *)
From Coq Require Import String List ZArith QArith Bool Arith.
From Verif Require Import Base Lists StructModel ThinModel.
Import ListNotations.
Local Open Scope nat_scope.

(** the element of a tensor (shape, row-major elements) at a multi-index *)
Fixpoint offset (sh ix : list nat) : option nat :=
  match sh, ix with
  | [], [] => Some 0
  | n :: sh, i :: ix => if Nat.ltb i n then option_map (fun o => i * numel sh + o) (offset sh ix) else None
  | _, _ => None
  end.
Definition elem (t : nd) (ix : list nat) : option Q :=
  match offset (nd_shape t) ix with Some o => nth_error (nd_data t) o | None => None end.
Definition wf_nd (t : nd) : Prop := length (nd_data t) = numel (nd_shape t).

(** [t'] is [t] with exactly the indices [sel d] kept along each dimension [d] *)
Definition kept (t : nd) (sel : nat -> option (list nat)) (d : nat) : list nat :=
  match sel d with Some l => l | None => seq 0 (nth d (nd_shape t) 0) end.
Definition subtensor (t t' : nd) (sel : nat -> option (list nat)) : Prop :=
  wf_nd t' /\ length (nd_shape t') = length (nd_shape t) /\
  (forall d, d < length (nd_shape t) -> nth d (nd_shape t') 0 = length (kept t sel d)) /\
  (forall ix, length ix = length (nd_shape t) -> (forall d, d < length ix -> nth d ix 0 < length (kept t sel d)) ->
     elem t' ix = elem t (map (fun d => nth (nth d ix 0) (kept t sel d) 0) (seq 0 (length ix)))).

(** a set of indices of a dimension of size [n], as torch.nonzero produces them *)
Definition index_set (n : nat) (idx : list nat) : Prop := exists keep, idx = filter keep (seq 0 n).
(** the directives of a parameter, as a selection per dimension *)
Fixpoint selection (ds : list pdir) (d : nat) : option (list nat) :=
  match ds with
  | [] => None
  | D2 k idx :: r => if Nat.eqb k d then Some idx else selection r d
  | D4 _ _ _ _ :: r => selection r d
  end.
Definition is_d2 (d : pdir) : Prop := match d with D2 _ _ => True | _ => False end.
(** directives that select along different dimensions, with indices of the tensor *)
Definition good_dirs (sh : list nat) (ds : list pdir) : Prop :=
  NoDup (map dir_dim ds) /\ forall d, In d ds -> is_d2 d /\ dir_dim d < length sh /\ index_set (nth (dir_dim d) sh 0) (dir_idx d).

(** momentum buffers are thinned together with gradients, for tracked parameters of an SGD *)
Definition thins_mom (opt : optimizer) (p : param) : bool :=
  match opt, p_grad p with Some true, Some _ => p_tracked p | _, _ => false end.
(** tensors of the shape of the parameter *)
Definition of_shape (sh : list nat) (t : nd) : Prop := nd_shape t = sh /\ wf_nd t.
Definition good_param (opt : optimizer) (p : param) : Prop :=
  wf_nd (p_data p) /\ (forall t, p_grad p = Some t -> of_shape (nd_shape (p_data p)) t /\ opt <> Some false) /\
  (forall t, p_mom p = Some t -> thins_mom opt p = true -> of_shape (nd_shape (p_data p)) t).

(** the masks that execution changes: none when loading from a file or without a scheduler *)
Definition touches_masks (loaded : bool) (masks : pdict (option nd)) : bool := negb loaded && match masks with [] => false | _ => true end.
Definition good_mask (loaded : bool) (masks : pdict (option nd)) (k : pname) (sh : list nat) : Prop :=
  touches_masks loaded masks = true -> exists o, pget masks k = Some o /\ forall t, o = Some t -> of_shape sh t.

(** a module directive that names an existing tensor and indices of it *)
Definition good_mdir (attrs : dict attr) (e : string * mdir) : Prop :=
  match snd e with
  | MSet _ => True
  | MSel dim idx => exists t, dget attrs (fst e) = Some (ATen t) /\ wf_nd t /\ dim < length (nd_shape t) /\ index_set (nth dim (nd_shape t) 0) idx
  end.

(** a recipe for this model: distinct names, existing modules and parameters, directives along different dimensions *)
Definition recipe_fits (opt : optimizer) (loaded : bool) (m : mstate) (masks : pdict (option nd)) (r : recipe) : Prop :=
  r_params r <> [] /\
  NoDup (map fst (r_params r)) /\
  (forall k ds, In (k, ds) (r_params r) -> exists p, pget (ms_params m) k = Some p /\ good_param opt p /\
     good_dirs (nd_shape (p_data p)) ds /\ good_mask loaded masks k (nd_shape (p_data p))) /\
  NoDup (map fst (r_mods r)) /\
  (forall n md, In (n, md) (r_mods r) -> exists x, dget (ms_mods m) n = Some x /\ NoDup (map fst md) /\
     forall e, In e md -> good_mdir (m_attrs x) e).

(** both absent, or the second is the sub-tensor of the first *)
Definition sub_opt (o o' : option nd) (sel : nat -> option (list nat)) : Prop :=
  match o, o' with Some t, Some t' => subtensor t t' sel | None, None => True | _, _ => False end.
