(** Model of checkpoint loading as far as the scheduler is concerned
    (distiller/apputils/checkpoint.py). *)
From Coq Require Import String List ZArith QArith Bool Arith.
From Verif Require Import Base Names SchedModel.
Import ListNotations.

(** checkpoint.py:120-132 [_load_compression_scheduler]: first without, then (after a
    KeyError) with key normalisation.  Returns the maskers, the final exception and
    [normalize_keys].  The first attempt may already have replaced some masks. *)
Definition load_compression_scheduler (mk : dict masker) (state : option (dict (option tensor)))
  : dict masker * option exn * bool :=
  let r := load_state_dict mk state false in
  match snd r with
  | None => (fst r, None, false)
  | Some _ => (load_state_dict (fst r) state true, true)
  end.

(** What torch's [model.load_state_dict(state, strict=False)] and the check that follows do
    with the model's parameters (checkpoint.py:218-229): every model key must be present in
    the checkpoint (a missing key raises ValueError, after the present ones have been
    copied); unexpected keys are only reported.  Shapes and buffers are not modelled. *)
Fixpoint load_params (params : dict tensor) (loaded : dict tensor) : dict tensor :=
  match params with
  | [] => []
  | (n, p) :: ps =>
      (n, match dget loaded n with Some x => x | None => p end) :: load_params ps loaded
  end.

Definition missing_keys (params loaded : dict tensor) : list string :=
  filter (fun n => negb (dmem loaded n)) (dkeys params).

(** The file: the entries of the dictionary written by [save_checkpoint]
    (checkpoint.py:67-89) that concern the scheduler and the weights. *)
Record checkpoint := mkCkpt {
  ck_params : dict tensor;                          (* 'state_dict' *)
  ck_sched : option (dict (option tensor));         (* 'compression_sched', if present *)
  ck_epoch : option Z                               (* 'epoch' *)
}.

(** checkpoint.py:67-81 [save_checkpoint] *)
Definition save_checkpoint (epoch : Z) (params : dict tensor) (mk : option (dict masker)) : checkpoint :=
  mkCkpt params (match mk with Some m => Some (state_dict m) | None => None end) (Some epoch).

(** checkpoint.py:196-248 [load_checkpoint] without thinning recipes and quantizer metadata;
    [params] are the parameters of the (freshly created) model.  Returns the model's
    parameters, the maskers of the new scheduler (None when the file has no scheduler) and
    the start epoch. *)
Definition load_checkpoint (params : dict tensor) (ck : checkpoint)
  : res (dict tensor * option (dict masker) * Z) :=
  let start_epoch := match ck_epoch ck with Some e => (e + 1)%Z | None => 0%Z end in
  do sr <- (match ck_sched ck with
            | None => Ok (None, false)
            | Some st =>
                match load_compression_scheduler (create_model_masks_dict params) (Some st) with
                | (mk, None, nrm) => Ok (Some mk, nrm)
                | (_, Some e, _) => Raise e
                end
            end);
  let (mk, nrm) := sr : option (dict masker) * bool in
  let sd := if nrm then rekey normalize_module_name (ck_params ck) else ck_params ck in
  match missing_keys params sd with
  | [] => Ok (load_params params sd, mk, start_epoch)
  | _ => Raise ValueError
  end.
