(** Model of the compression scheduler, the parameter maskers and the scheduled
    training policies (distiller/scheduler.py, distiller/policy.py). *)
From Coq Require Import String List ZArith QArith Bool Arith.
From Verif Require Import Base Names.
Import ListNotations.

(* ------------------------------------------------------------------------- *)
(** ** ParameterMasker *)

(** scheduler.py:245-257 [ParameterMasker.__init__]; [param_name] is only used for logging
    and is dropped.  [mk_hooks] counts the gradient hooks registered on the parameter that
    have not been removed (PyTorch keeps them on the tensor); [mk_handle] is
    [backward_hook_handle is not None]. *)
Record masker := mkMasker {
  mk_mask : option tensor;
  mk_is_reg : bool;
  mk_double : bool;
  mk_fwd_only : bool;
  mk_copy : option tensor;
  mk_handle : bool;
  mk_hooks : nat
}.

Definition new_masker : masker := mkMasker None false false false None false 0.

Definition set_mask (m : masker) (x : option tensor) : masker :=
  mkMasker x (mk_is_reg m) (mk_double m) (mk_fwd_only m) (mk_copy m) (mk_handle m) (mk_hooks m).
Definition set_is_reg (m : masker) (b : bool) : masker :=
  mkMasker (mk_mask m) b (mk_double m) (mk_fwd_only m) (mk_copy m) (mk_handle m) (mk_hooks m).
Definition set_double (m : masker) (b : bool) : masker :=
  mkMasker (mk_mask m) (mk_is_reg m) b (mk_fwd_only m) (mk_copy m) (mk_handle m) (mk_hooks m).
Definition set_fwd_only (m : masker) (b : bool) : masker :=
  mkMasker (mk_mask m) (mk_is_reg m) (mk_double m) b (mk_copy m) (mk_handle m) (mk_hooks m).
Definition set_copy (m : masker) (c : option tensor) : masker :=
  mkMasker (mk_mask m) (mk_is_reg m) (mk_double m) (mk_fwd_only m) c (mk_handle m) (mk_hooks m).
Definition set_handle (m : masker) (b : bool) (n : nat) : masker :=
  mkMasker (mk_mask m) (mk_is_reg m) (mk_double m) (mk_fwd_only m) (mk_copy m) b n.

(** scheduler.py:270-272 [ParameterMasker.mask_tensor]: [tensor.data.mul_(self.mask)] *)
Definition mask_tensor (m : masker) (t : tensor) : tensor :=
  match mk_mask m with
  | None => t
  | Some mask => tmul t mask
  end.

(** scheduler.py:259-268 [ParameterMasker.apply_mask]; returns the masker and the value of
    the parameter afterwards. *)
Definition apply_mask (m : masker) (p : tensor) : masker * tensor :=
  match mk_mask m with
  | None => (m, p)
  | Some _ =>
      let m1 := if mk_double m then set_copy m (Some p) else m in
      let p1 := mask_tensor m1 p in
      let m2 := if mk_is_reg m1 then set_mask m1 None else m1 in
      (m2, p1)
  end.

(** scheduler.py:274-276 [ParameterMasker.mask_gradient]: the hook returns the masked
    gradient, or None (gradient unchanged) when there is no mask. *)
Definition mask_gradient (m : masker) (g : tensor) : tensor :=
  match mk_mask m with
  | None => g
  | Some mask => tmul g mask
  end.

(** scheduler.py:278-283 [ParameterMasker.revert_weights] *)
Definition revert_weights (m : masker) (p : tensor) : masker * tensor :=
  if negb (mk_double m) then (m, p)
  else match mk_copy m with
       | None => (m, p)
       | Some c => (set_copy m None, c)
       end.

(** scheduler.py:286-292 [create_model_masks_dict] *)
Definition create_model_masks_dict (params : dict tensor) : dict masker :=
  fold_left (fun d np => dset d (fst np) new_masker) params [].

(* ------------------------------------------------------------------------- *)
(** ** The schedule *)

(** [sched_metadata[policy]]: scheduler.py:76-78 and the 'current_epoch' entry. *)
Record meta := mkMeta {
  me_start : Z; me_end : Z; me_freq : option Z; me_cur : option Z
}.

(** Policies are identified by a number (Python uses object identity). *)
Record sched := mkSched {
  sc_policies : list (Z * list nat);   (* self.policies : epoch -> list of policies *)
  sc_meta : list (nat * meta)          (* self.sched_metadata *)
}.

(** scheduler.py:40-41: an empty schedule *)
Definition new_sched : sched := mkSched [] [].

(** [self.policies.get(epoch, list())] *)
Fixpoint policies_at (d : list (Z * list nat)) (e : Z) : list nat :=
  match d with
  | [] => []
  | (e', l) :: d' => if Z.eqb e e' then l else policies_at d' e
  end.

(** scheduler.py:69-73: [policies[epoch] = [policy]] or [policies[epoch].append(policy)] *)
Fixpoint append_policy (d : list (Z * list nat)) (e : Z) (p : nat) : list (Z * list nat) :=
  match d with
  | [] => [(e, [p])]
  | (e', l) :: d' => if Z.eqb e e' then (e', l ++ [p]) :: d' else (e', l) :: append_policy d' e p
  end.

Fixpoint meta_get (d : list (nat * meta)) (p : nat) : option meta :=
  match d with
  | [] => None
  | (p', m) :: d' => if Nat.eqb p p' then Some m else meta_get d' p
  end.

Fixpoint meta_set (d : list (nat * meta)) (p : nat) (m : meta) : list (nat * meta) :=
  match d with
  | [] => [(p, m)]
  | (p', m') :: d' => if Nat.eqb p p' then (p', m) :: d' else (p', m') :: meta_set d' p m
  end.

(** Python's [list(range(start, stop, step))] for [step > 0]; [fuel] only bounds the
    recursion ([Z.to_nat (stop - start)] always suffices). *)
Fixpoint zrange_fuel (fuel : nat) (start stop step : Z) : list Z :=
  match fuel with
  | O => []
  | S f => if Z.ltb start stop then start :: zrange_fuel f (start + step) stop step else []
  end.
Definition zrange (start stop step : Z) : list Z :=
  zrange_fuel (Z.to_nat (stop - start)) start stop step.

(** Arguments of [add_policy]: None is Python's None. *)
Record add_args := mkAdd {
  ad_policy : nat;
  ad_epochs : option (list Z);
  ad_start : option Z;
  ad_end : option Z;
  ad_freq : option Z
}.

(** scheduler.py:69-78, the part of [add_policy] that updates the schedule *)
Definition record_policy (s : sched) (p : nat) (epochs : list Z) (m : meta) : sched :=
  mkSched (fold_left (fun d e => append_policy d e p) epochs (sc_policies s))
          (meta_set (sc_meta s) p m).

(** scheduler.py:45-78 [CompressionScheduler.add_policy] *)
Definition add_policy (s : sched) (a : add_args) : res sched :=
  match ad_epochs a with
  | None =>
      match ad_start a, ad_end a, ad_freq a with
      | Some st, Some en, Some fr =>
          if Z.leb 0 st && Z.ltb st en then
            if Z.ltb 0 fr && Z.leb fr (en - st) then
              Ok (record_policy s (ad_policy a) (zrange st en fr) (mkMeta st en (Some fr) None))
            else Raise AssertionError
          else Raise AssertionError
      | _, _, _ => Raise AssertionError
      end
  | Some epochs =>
      match ad_start a, ad_end a with
      | None, None =>
          match epochs with
          | [] => Raise IndexError                      (* epochs[0] *)
          | e0 :: _ =>
              Ok (record_policy s (ad_policy a) epochs
                    (mkMeta e0 (last epochs 0%Z + 1) None None))
          end
      | _, _ => Raise AssertionError
      end
  end.

(* ------------------------------------------------------------------------- *)
(** ** Policies *)

Section WithPrunerState.
Context {PS : Type}.     (* internal state of a pruner object *)

(** A pruner's [set_param_mask(param, param_name, zeros_mask_dict, meta)], seen as a
    function of its own state, the metadata, the parameter's name and value and the
    current mask, giving the new state and mask (every pruner in distiller/pruning writes
    only [zeros_mask_dict[param_name].mask]). *)
Definition pruner := PS -> meta -> string -> tensor -> option tensor -> res (PS * option tensor).

(** policy.py:123-134: the configuration of a [PruningPolicy].
    [pc_fold]: with fold_batchnorm, the value (if any) that [_fold_batchnorm] (142-177)
    substitutes for the parameter; [None] is fold_batchnorm=False.
    'levels' (policy.py:123,182) is part of the pruner here. *)
Record prune_cfg := mkCfg {
  pc_keep : bool;
  pc_mbfreq : Z;
  pc_fwd_only : bool;
  pc_mask_grad : bool;
  pc_double : bool;
  pc_discard : bool;
  pc_skip_first : bool;
  pc_fold : option (string -> tensor -> option tensor)
}.

(** policy.py:128-129: the constructor's check *)
Definition check_cfg (c : prune_cfg) : res prune_cfg :=
  if pc_mask_grad c && negb (pc_fwd_only c) then Raise ValueError else Ok c.

(** A regularizer (distiller/regularization): its per-parameter loss contribution,
    whether threshold_criteria is set, and the mask its [threshold] method sets
    ([None]: the parameter is not in its regime and nothing is changed). *)
Record regularizer := mkReg {
  rg_loss : string -> tensor -> Q;
  rg_criteria : bool;
  rg_threshold : string -> tensor -> option tensor
}.

(** What a policy's before_backward_pass may return (policy.py:33-37, scheduler.py:231-242):
    None, a PolicyLoss with one component or with a list, or something else. *)
Inductive ploss :=
| PLNone
| PLOne (overall : Q) (component : Q)
| PLList (overall : Q) (components : list Q)
| PLBad.

Inductive policy :=
| PPrune (c : prune_cfg) (pr : pruner)      (* policy.py:86-255 *)
| PReg (r : regularizer) (keep : bool)      (* policy.py:258-297 *)
| PLR                                       (* policy.py:300-314 *)
| PLoss (f : Q -> ploss).                   (* any other policy that only looks at the loss *)

(** Run-time state of a policy object: policy.py:139-140, 266. *)
Record pol_state := mkPol {
  po_last : bool;     (* self.is_last_epoch *)
  po_init : bool;     (* self.is_initialized *)
  po_ps : PS          (* the pruner's state *)
}.

Inductive callback :=
| CbEpochBegin | CbMBBegin | CbBackward | CbBeforeOpt | CbMBEnd | CbEpochEnd.

(** The observable world: the model's parameters, the maskers, the policy objects, the
    schedule, the log of policy calls and of the learning-rate steps. *)
Record world := mkWorld {
  w_params : dict tensor;
  w_maskers : dict masker;
  w_pol : nat -> pol_state;
  w_sched : sched;
  w_log : list (callback * nat * Z);
  w_lr : list (nat * Z)
}.

Definition with_params (w : world) (x : dict tensor) : world :=
  mkWorld x (w_maskers w) (w_pol w) (w_sched w) (w_log w) (w_lr w).
Definition with_maskers (w : world) (x : dict masker) : world :=
  mkWorld (w_params w) x (w_pol w) (w_sched w) (w_log w) (w_lr w).
Definition with_pol (w : world) (p : nat) (x : pol_state) : world :=
  mkWorld (w_params w) (w_maskers w)
    (fun q => if Nat.eqb q p then x else w_pol w q) (w_sched w) (w_log w) (w_lr w).
Definition with_meta (w : world) (x : list (nat * meta)) : world :=
  mkWorld (w_params w) (w_maskers w) (w_pol w) (mkSched (sc_policies (w_sched w)) x)
    (w_log w) (w_lr w).
Definition with_log (w : world) (x : callback * nat * Z) : world :=
  mkWorld (w_params w) (w_maskers w) (w_pol w) (w_sched w) (w_log w ++ [x]) (w_lr w).
Definition with_lr (w : world) (x : nat * Z) : world :=
  mkWorld (w_params w) (w_maskers w) (w_pol w) (w_sched w) (w_log w) (w_lr w ++ [x]).

Definition get_masker (w : world) (n : string) : res masker :=
  match dget (w_maskers w) n with Some m => Ok m | None => Raise KeyError end.
Definition put_masker (w : world) (n : string) (m : masker) : world :=
  with_maskers w (dset (w_maskers w) n m).
Definition get_param (w : world) (n : string) : res tensor :=
  match dget (w_params w) n with Some p => Ok p | None => Raise KeyError end.
Definition put_param (w : world) (n : string) (p : tensor) : world :=
  with_params w (dset (w_params w) n p).

(** [for param_name, param in model.named_parameters(): body] *)
Definition for_params (body : world -> string -> res world) (w : world) : res world :=
  foldM body (dkeys (w_params w)) w.

(** [_fold_batchnorm]: the substituted tensor, or [None] when the parameter object itself
    is used (policy.py:167-177). *)
Definition folded (c : prune_cfg) (n : string) (p : tensor) : option tensor :=
  match pc_fold c with None => None | Some f => f n p end.

(** [self.pruner.set_param_mask(param, param_name, zeros_mask_dict, meta)] with [param]
    possibly replaced by the folded weights. *)
Definition call_pruner (pid : nat) (c : prune_cfg) (pr : pruner) (me : meta)
           (w : world) (n : string) : res world :=
  do p <- get_param w n;
  do m <- get_masker w n;
  let arg := match folded c n p with Some f => f | None => p end in
  do r <- pr (po_ps (w_pol w pid)) me n arg (mk_mask m);
  let st := w_pol w pid in
  Ok (put_masker (with_pol w pid (mkPol (po_last st) (po_init st) (fst r))) n
        (set_mask m (snd r))).

(** policy.py:194-210: the loop body of [PruningPolicy.on_epoch_begin]; [was_init] is the
    value of self.is_initialized before the loop.  Registering a hook on a folded
    (no-grad) tensor raises RuntimeError. *)
Definition prune_epoch_begin_body (pid : nat) (c : prune_cfg) (pr : pruner) (me : meta)
           (was_init : bool) (w : world) (n : string) : res world :=
  if was_init then call_pruner pid c pr me w n
  else
    do p <- get_param w n;
    do m <- get_masker w n;
    let m1 := set_fwd_only (set_double m (pc_double c)) (pc_fwd_only c) in
    do m2 <- (if pc_mask_grad c then
                match folded c n p with
                | Some _ => Raise RuntimeError
                | None => Ok (set_handle m1 true (S (mk_hooks m1)))
                end
              else Ok m1);
    let st := w_pol w pid in
    let w1 := with_pol (put_masker w n m2) pid (mkPol (po_last st) true (po_ps st)) in
    if pc_skip_first c then Ok w1 else call_pruner pid c pr me w1 n.

(** policy.py:181, 269: [self.is_last_epoch = meta['current_epoch'] == meta['ending_epoch'] - 1] *)
Definition is_last (me : meta) : bool :=
  match me_cur me with Some c => Z.eqb c (me_end me - 1) | None => false end.

(** policy.py:179-210 [PruningPolicy.on_epoch_begin] *)
Definition prune_epoch_begin (pid : nat) (c : prune_cfg) (pr : pruner) (me : meta)
           (w : world) : res world :=
  let st := w_pol w pid in
  let w1 := with_pol w pid (mkPol (is_last me) (po_init st) (po_ps st)) in
  for_params (prune_epoch_begin_body pid c pr me (po_init st)) w1.

(** policy.py:214-225: are masks recomputed at this mini-batch? *)
Definition set_masks_now (c : prune_cfg) (epoch minibatch_id minibatches_per_epoch : Z) : bool :=
  let global_mini_batch_id := (epoch * minibatches_per_epoch + minibatch_id)%Z in
  (Z.ltb 0 minibatch_id && negb (Z.eqb (pc_mbfreq c) 0)
     && Z.eqb (global_mini_batch_id mod (pc_mbfreq c)) 0)
  || (pc_skip_first c && Z.eqb global_mini_batch_id 1).

(** policy.py:227-232: the loop body of [PruningPolicy.on_minibatch_begin].  Note that when
    masks are recomputed with BN-folding, [param] has been rebound to the folded tensor, so
    [apply_mask] acts on that temporary tensor and the model's parameter is not masked. *)
Definition prune_mb_begin_body (pid : nat) (c : prune_cfg) (pr : pruner) (me : meta)
           (set_masks : bool) (w : world) (n : string) : res world :=
  do p <- get_param w n;
  do w1 <- (if set_masks then call_pruner pid c pr me w n else Ok w);
  do m <- get_masker w1 n;
  match (if set_masks then folded c n p else None) with
  | Some f => let r := apply_mask m f in Ok (put_masker w1 n (fst r))
  | None => let r := apply_mask m p in Ok (put_param (put_masker w1 n (fst r)) n (snd r))
  end.

(** policy.py:212-232 [PruningPolicy.on_minibatch_begin] *)
Definition prune_mb_begin (pid : nat) (c : prune_cfg) (pr : pruner) (me : meta)
           (e i k : Z) (w : world) : res world :=
  for_params (prune_mb_begin_body pid c pr me (set_masks_now c e i k)) w.

(** policy.py:234-237 [PruningPolicy.before_parameter_optimization] *)
Definition prune_before_opt (w : world) : res world :=
  for_params (fun w n =>
    do p <- get_param w n;
    do m <- get_masker w n;
    let r := revert_weights m p in
    Ok (put_param (put_masker w n (fst r)) n (snd r))) w.

(** policy.py:239-242 [PruningPolicy.on_minibatch_end] *)
Definition prune_mb_end (c : prune_cfg) (w : world) : res world :=
  if pc_discard c then
    for_params (fun w n => do m <- get_masker w n; Ok (put_masker w n (set_mask m None))) w
  else Ok w.

(** policy.py:244-255 [PruningPolicy.on_epoch_end] *)
Definition prune_epoch_end_body (c : prune_cfg) (w : world) (n : string) : res world :=
  do p <- get_param w n;
  do m <- get_masker w n;
  let m1 := if pc_keep c then set_fwd_only (set_double m false) false else m in
  let p1 := if pc_keep c then mask_tensor m1 p else p in
  let m2 := if mk_handle m1 then set_handle m1 false (Nat.pred (mk_hooks m1)) else m1 in
  Ok (put_param (put_masker w n m2) n p1).

Definition prune_epoch_end (pid : nat) (c : prune_cfg) (w : world) : res world :=
  if po_last (w_pol w pid) then for_params (prune_epoch_end_body c) w else Ok w.

(** policy.py:268-269 [RegularizationPolicy.on_epoch_begin] *)
Definition reg_epoch_begin (pid : nat) (me : meta) (w : world) : res world :=
  let st := w_pol w pid in
  Ok (with_pol w pid (mkPol (is_last me) (po_init st) (po_ps st))).

(** policy.py:273-276: the accumulated regularization loss *)
Definition reg_loss (r : regularizer) (w : world) : Q :=
  fold_left (fun acc np => acc + rg_loss r (fst np) (snd np)) (w_params w) 0.

(** policy.py:271-280 [RegularizationPolicy.before_backward_pass] *)
Definition reg_backward (r : regularizer) (loss : Q) (w : world) : ploss :=
  PLList (loss + reg_loss r w) [reg_loss r w].

(** policy.py:293-297 with L1Regularizer.threshold (l1_regularizer.py:34-41) or
    GroupLassoRegularizer.threshold (group_regularizer.py:85-92) *)
Definition reg_mb_end_body (r : regularizer) (keep_mask : bool) (w : world) (n : string) : res world :=
  do p <- get_param w n;
  do m <- get_masker w n;
  let m1 := match rg_threshold r n p with
            | Some mask => set_is_reg (set_mask m (Some mask)) true
            | None => m
            end in
  let m2 := if keep_mask then set_is_reg m1 false else m1 in
  let ap := apply_mask m2 p in
  Ok (put_param (put_masker w n (fst ap)) n (snd ap)).

(** policy.py:282-297 [RegularizationPolicy.on_minibatch_end] *)
Definition reg_mb_end (pid : nat) (r : regularizer) (keep : bool) (i k : Z) (w : world) : res world :=
  if negb (rg_criteria r) then Ok w
  else
    let keep_mask := Z.eqb (k - 1) i && po_last (w_pol w pid) && keep in
    for_params (reg_mb_end_body r keep_mask) w.

(* ------------------------------------------------------------------------- *)
(** ** Scheduler callbacks *)
Section WithPolicies.
Variable tbl : nat -> policy.      (* the policy objects *)

(** [meta = self.sched_metadata[policy]; meta['current_epoch'] = epoch] *)
Definition touch_meta (e : Z) (w : world) (pid : nat) : res (world * meta) :=
  match meta_get (sc_meta (w_sched w)) pid with
  | None => Raise KeyError
  | Some m =>
      let m' := mkMeta (me_start m) (me_end m) (me_freq m) (Some e) in
      Ok (with_meta w (meta_set (sc_meta (w_sched w)) pid m'), m')
  end.

(** scheduler.py:80-85 *)
Definition on_epoch_begin (e : Z) (w : world) : res world :=
  foldM (fun w pid =>
    do wm <- touch_meta e w pid;
    let (w, me) := wm in
    let w := with_log w (CbEpochBegin, pid, e) in
    match tbl pid with
    | PPrune c pr => prune_epoch_begin pid c pr me w
    | PReg r keep => reg_epoch_begin pid me w
    | _ => Ok w
    end) (policies_at (sc_policies (w_sched w)) e) w.

(** scheduler.py:87-93 *)
Definition on_minibatch_begin (e i k : Z) (w : world) : res world :=
  foldM (fun w pid =>
    do wm <- touch_meta e w pid;
    let (w, me) := wm in
    let w := with_log w (CbMBBegin, pid, e) in
    match tbl pid with
    | PPrune c pr => prune_mb_begin pid c pr me e i k w
    | _ => Ok w
    end) (policies_at (sc_policies (w_sched w)) e) w.

(** scheduler.py:231-242 [verify_policy_loss]: the list of components *)
Definition verify_policy_loss (pl : ploss) : res (list Q) :=
  match pl with
  | PLNone | PLBad => Raise TypeError
  | PLOne _ c => Ok [c]
  | PLList _ l => Ok l
  end.

Definition ploss_overall (pl : ploss) (dflt : Q) : Q :=
  match pl with PLOne o _ | PLList o _ => o | _ => dflt end.

(** A policy's before_backward_pass *)
Definition policy_backward (pid : nat) (loss : Q) (w : world) : ploss :=
  match tbl pid with
  | PReg r keep => reg_backward r loss w
  | PLoss f => f loss
  | _ => PLNone
  end.

(** scheduler.py:95-112 [before_backward_pass]; returns (overall_loss, loss_components) *)
Definition before_backward_pass (e : Z) (loss : Q) (w : world) : res (world * (Q * list Q)) :=
  foldM (fun (st : world * (Q * list Q)) pid =>
    let '(w, (overall, comps)) := st in
    let w := with_log w (CbBackward, pid, e) in
    match policy_backward pid overall w with
    | PLNone => Ok (w, (overall, comps))
    | pl => do cs <- verify_policy_loss pl;
            Ok (w, (ploss_overall pl overall, comps ++ cs))
    end) (policies_at (sc_policies (w_sched w)) e) (w, (loss, [])).

(** scheduler.py:114-120 *)
Definition before_parameter_optimization (e i k : Z) (w : world) : res world :=
  foldM (fun w pid =>
    do wm <- touch_meta e w pid;
    let (w, me) := wm in
    let w := with_log w (CbBeforeOpt, pid, e) in
    match tbl pid with
    | PPrune c pr => prune_before_opt w
    | _ => Ok w
    end) (policies_at (sc_policies (w_sched w)) e) w.

(** [name_parts[-2]]; IndexError when there is a single part *)
Definition second_last (l : list string) : res string :=
  match rev l with
  | _ :: x :: _ => Ok x
  | _ => Raise IndexError
  end.

(** [name_parts.pop(-2)] *)
Definition pop_second_last (l : list string) : list string :=
  match rev l with
  | z :: _ :: r => rev r ++ [z]
  | _ => l
  end.

Definition set_last (l : list string) (x : string) : list string := removelast l ++ [x].

(** scheduler.py:163-171: the masker name used for a parameter that is not in the
    dictionary; [None] when the parameter is to be ignored. *)
Definition fallback_name (name : string) : res (option string) :=
  let parts := split_dot name in
  let lst := last parts EmptyString in
  let prefixed := startswith "float_" lst in
  do sl <- second_last parts;
  let wrapped := String.eqb sl "wrapped_module" in
  if prefixed || wrapped then
    let parts1 := if prefixed then set_last parts (sdrop 6 lst) else parts in
    let parts2 := if wrapped then pop_second_last parts1 else parts1 in
    Ok (Some (join_dot parts2))
  else Ok None.

(** scheduler.py:144-172 [mask_all_weights] *)
Definition mask_all_body (is_forward : bool) (w : world) (n : string) : res world :=
  do p <- get_param w n;
  match dget (w_maskers w) n with
  | Some m =>
      if is_forward || negb (mk_fwd_only m)
      then Ok (put_param w n (mask_tensor m p))
      else Ok w
  | None =>
      do o <- fallback_name n;
      match o with
      | None => Ok w
      | Some n' =>
          do m <- get_masker w n';
          let r := apply_mask m p in
          Ok (put_param (put_masker w n' (fst r)) n (snd r))
      end
  end.

Definition mask_all_weights (is_forward : bool) (w : world) : res world :=
  for_params (mask_all_body is_forward) w.

(** scheduler.py:122-134 *)
Definition on_minibatch_end (e i k : Z) (w : world) : res world :=
  do w0 <- mask_all_weights false w;
  foldM (fun w pid =>
    let w := with_log w (CbMBEnd, pid, e) in
    match tbl pid with
    | PPrune c pr => prune_mb_end c w
    | PReg r keep => reg_mb_end pid r keep i k w
    | _ => Ok w
    end) (policies_at (sc_policies (w_sched w0)) e) w0.

(** scheduler.py:136-142; LRPolicy.on_epoch_end (policy.py:308-314) steps its scheduler to
    epoch + 1 *)
Definition on_epoch_end (e : Z) (w : world) : res world :=
  foldM (fun w pid =>
    do wm <- touch_meta e w pid;
    let (w, me) := wm in
    let w := with_log w (CbEpochEnd, pid, e) in
    match tbl pid with
    | PPrune c pr => prune_epoch_end pid c w
    | PLR => Ok (with_lr w (pid, e + 1)%Z)
    | _ => Ok w
    end) (policies_at (sc_policies (w_sched w)) e) w.

(** What the application may do, in any order (the documented order of the training loop
    is one possible history; apputils/image_classifier.py [train]).  [EvUpdate f] is any
    modification of the weights (an optimizer step, a weight load, user code): the new value of
    each parameter may depend on its name, its value and all the weights of the model. *)
Inductive event :=
| EvEpochBegin (e : Z)
| EvMBBegin (e i k : Z)
| EvBackward (e : Z) (loss : Q)
| EvBeforeOpt (e i k : Z)
| EvUpdate (f : dict tensor -> string -> tensor -> tensor)
| EvMBEnd (e i k : Z)
| EvEpochEnd (e : Z)
| EvMaskAll (is_forward : bool).

Definition step (w : world) (ev : event) : res world :=
  match ev with
  | EvEpochBegin e => on_epoch_begin e w
  | EvMBBegin e i k => on_minibatch_begin e i k w
  | EvBackward e loss => do r <- before_backward_pass e loss w; Ok (fst r)
  | EvBeforeOpt e i k => before_parameter_optimization e i k w
  | EvUpdate f => Ok (with_params w (map (fun np => (fst np, f (w_params w) (fst np) (snd np))) (w_params w)))
  | EvMBEnd e i k => on_minibatch_end e i k w
  | EvEpochEnd e => on_epoch_end e w
  | EvMaskAll fwd => mask_all_weights fwd w
  end.

Definition run (h : list event) (w : world) : res world := foldM step h w.

End WithPolicies.

(* ------------------------------------------------------------------------- *)
(** ** Scheduler state dictionaries *)

(** scheduler.py:174-183 [state_dict]: the 'masks_dict' entry *)
Definition state_dict (mk : dict masker) : dict (option tensor) :=
  map (fun nm => (fst nm, mk_mask (snd nm))) mk.

(** A Python dict comprehension [{f(k): v for k, v in d.items()}]: later keys overwrite. *)
Definition rekey {A} (f : string -> string) (d : dict A) : dict A :=
  fold_left (fun acc kv => dset acc (f (fst kv)) (snd kv)) d [].

(** scheduler.py:211-215: the loop of [load_state_dict]; assigns masks one by one, so on a
    KeyError the masks before the missing one have already been replaced.  Returns the
    maskers and whether KeyError was raised. *)
Fixpoint load_masks (mk : dict masker) (loaded : dict (option tensor)) : dict masker * bool :=
  match mk with
  | [] => ([], true)
  | (n, m) :: mk' =>
      match dget loaded n with
      | None => ((n, m) :: mk', false)
      | Some x => let r := load_masks mk' loaded in ((n, set_mask m x) :: fst r, snd r)
      end
  end.

(** scheduler.py:185-215 [load_state_dict]; [state] = None models a state without the
    'masks_dict' key. Returns the new maskers and the exception, if any. *)
Definition load_state_dict (mk : dict masker) (state : option (dict (option tensor)))
           (normalize : bool) : dict masker * option exn :=
  match state with
  | None => (mk, Some KeyError)
  | Some masks =>
      let loaded := if normalize then rekey normalize_module_name masks else masks in
      let r := load_masks mk loaded in
      (fst r, if snd r then None else Some KeyError)
  end.

(** scheduler.py:225-229 [init_from_masks_dict]; also returns the caller's dictionary, which
    is extended in place. *)
Definition init_from_masks_dict (mk : dict masker) (masks : dict (option tensor))
           (normalize : bool) : dict masker * option exn * dict (option tensor) :=
  let masks' := fold_left (fun d nm => if dmem d (fst nm) then d else dset d (fst nm) None) mk masks in
  (load_state_dict mk (Some masks') normalize, masks').

End WithPrunerState.

Arguments pruner PS : clear implicits.
Arguments prune_cfg : clear implicits.
Arguments policy PS : clear implicits.
Arguments pol_state PS : clear implicits.
Arguments world PS : clear implicits.
