(** Model of the sensitivity analysis (distiller/sensitivity.py:42-117), on top of the models of
    the compression scheduler (SchedModel), of the element-wise level pruner (PrunerModel) and of
    the ranked structure pruner (StructModel). *)
From Coq Require Import String List ZArith QArith Qabs Qround Bool Arith.
From Verif Require Import Base Names Lists SchedModel PrunerModel StructModel.
Import ListNotations.

(** sensitivity.py:70: the legal values of [group]; [GOther] is any other string *)
Inductive group := GElement | GFilter | GChannel | GOther.

(** Python's [a in b] for strings: [a] occurs somewhere in [b] *)
Fixpoint str_in (a b : string) : bool :=
  prefix a b || match b with EmptyString => false | String _ b' => str_in a b' end.

(** The model under test: its named parameters and the other entries of its state_dict
    (buffers).  Parameters shared under several names are not modelled. *)
Record net := mkNet { n_params : dict nd; n_buffers : dict nd }.

(** [model.state_dict()[name]] *)
Definition state_entry (m : net) (n : string) : res nd :=
  match dget (n_params m) n with
  | Some t => Ok t
  | None => match dget (n_buffers m) n with Some t => Ok t | None => Raise KeyError end
  end.

(** The scheduler's view of the parameters, and back: pruning changes values only. *)
Definition values (d : dict nd) : dict tensor := map (fun nt => (fst nt, nd_data (snd nt))) d.
Definition with_values (d : dict nd) (v : dict tensor) : dict nd :=
  map (fun nt => (fst nt, mkND (nd_shape (snd nt))
                            (match dget v (fst nt) with Some x => x | None => nd_data (snd nt) end))) d.

(** pruning/ranked_structures_pruner.py:56-58, 63-71, 76-96 with [weights=param_name]: the
    argument is a string where a list is expected, so [is_supported] is a substring test;
    there is no group dependency, group_size is 1 and the noise is 0 (the defaults) *)
Definition ranked_string_pruner (shapes : dict nd) (g : gtype) (s : Q) (weights : string) : pruner unit :=
  fun ps _ n t mask =>
    if str_in n weights then
      match dget shapes n with
      | None => Raise KeyError
      | Some sh =>
          do r <- prune_group (mkLp g [weights] false 1 [] l1_norm) None s (mkND (nd_shape sh) t) true None;
          Ok (ps, match snd r with Some m => Some (nd_data m) | None => mask end)
      end
    else Ok (ps, mask).

(** sensitivity.py:86-106: the pruner, or None when the parameter is skipped *)
Definition sens_pruner (g : group) (m : net) (p : string) (s : Q) : res (option (pruner unit)) :=
  match g with
  | GElement => Ok (Some (level_pruner [(p, s)]))
  | GFilter =>
      do t <- state_entry m p;
      if negb (Nat.eqb (ndim t) 4) then Ok None
      else Ok (Some (ranked_string_pruner (n_params m) TFilters s p))
  | GChannel =>
      do t <- state_entry m p;
      if negb (Nat.eqb (ndim t) 4) then Ok None
      else Ok (Some (ranked_string_pruner (n_params m) TChannels s p))
  | GOther => Raise ValueError
  end.

(** policy.py:119-140 with pruner_args=None *)
Definition default_cfg : prune_cfg := mkCfg false 0 false false false false false None.

(** sensitivity.py:108-114: a new scheduler for the (already pruned) copy, one policy scheduled for
    epoch 0, [on_epoch_begin(0)], [mask_all_weights()]; the parameters afterwards *)
Definition prune_once (pr : pruner unit) (params : dict tensor) : res (dict tensor) :=
  do sc <- add_policy new_sched (mkAdd 0 (Some [0%Z]) None None None);
  let w := mkWorld params (create_model_masks_dict params) (fun _ => mkPol false false tt) sc [] [] in
  do w1 <- on_epoch_begin (fun _ => PPrune default_cfg pr) 0 w;
  do w2 <- mask_all_weights true w1;
  Ok (w_params w2).

(** [sensitivity[level] = value] for a dictionary with float keys (equality of numbers) *)
Fixpoint fset {R} (d : list (Q * R)) (k : Q) (v : R) : list (Q * R) :=
  match d with
  | [] => [(k, v)]
  | (k', v') :: d' => if Qeq_bool k k' then (k', v) :: d' else (k', v') :: fset d' k v
  end.

Section Analysis.
Context {R : Type}.
Variable test : dict nd -> R.     (* test_func: any function of the weights of the model it gets *)

(** sensitivity.py:83-116: one level; the state is the copy of the model and the dictionaries
    [sensitivity] and [sensitivities] *)
Definition sens_level (g : group) (m : net) (p : string)
           (st : dict nd * list (Q * R) * dict (list (Q * R))) (s : Q)
  : res (dict nd * list (Q * R) * dict (list (Q * R))) :=
  let '(cpy, sensitivity, sensitivities) := st in
  do o <- sens_pruner g m p s;
  match o with
  | None => Ok st
  | Some pr =>
      do v <- prune_once pr (values cpy);
      let cpy' := with_values cpy v in
      let sensitivity' := fset sensitivity s (test cpy') in
      Ok (cpy', sensitivity', dset sensitivities p sensitivity')
  end.

(** sensitivity.py:74-116: one parameter; the first component is the caller's model, which the
    code deep-copies (line 80) *)
Definition sens_param (g : group) (sparsities : list Q)
           (st : net * dict (list (Q * R))) (p : string) : res (net * dict (list (Q * R))) :=
  let (m, sensitivities) := st in
  do t <- state_entry m p;
  if Nat.eqb (ndim t) 2 || Nat.eqb (ndim t) 4 then
    let cpy := n_params m in
    do r <- foldM (sens_level g m p) sparsities (cpy, [], sensitivities);
    Ok (m, snd r)
  else Ok st.

(** sensitivity.py:42-117 [perform_sensitivity_analysis]; returns the caller's model and the
    dictionary *)
Definition perform_sensitivity_analysis (m : net) (net_params : list string) (sparsities : list Q)
           (g : group) : res (net * dict (list (Q * R))) :=
  match g with
  | GOther => Raise ValueError
  | _ => foldM (sens_param g sparsities) net_params (m, [])
  end.
End Analysis.

(** sensitivity.py:155-167 [sensitivities_to_csv]: the rows of the file after the header *)
Definition sens_csv {R} (d : dict (list (Q * R))) : list (string * Q * R) :=
  flat_map (fun pd => map (fun sv => (fst pd, fst sv, snd sv)) (snd pd)) d.
