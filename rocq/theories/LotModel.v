(** Model of the lottery-ticket example (examples/lottery_ticket/lottery.py), of training from its checkpoint, of the
    directives (distiller/directives.py) and of TrainingProgressCollector (distiller/data_loggers/collector.py).

    Simplifications: tensors are flat lists of exact rationals (no NaN), shapes are numbers of elements (an in-place
    multiplication broadcasts a smaller mask of a fitting shape: the model refuses every other size); checkpoints
    without thinning recipes and quantizer metadata, as in CkptModel. *)
From Coq Require Import String List ZArith QArith Bool Arith.
From Verif Require Import Base Names SchedModel CkptModel.
Import ListNotations.
Open Scope list_scope.
Open Scope nat_scope.

(* ------------------------------------------------------------------------- *)
(** * extract_lottery_ticket *)

(** torch.ne(param, 0).type(param.type()) *)
Definition nonzeros (t : tensor) : tensor := map (fun x => if Qeq_bool x 0 then 0%Q else 1%Q) t.
(** lottery.py:58-60: the masks, for the parameters of the pruned model the scheduler knows *)
Definition inferred_masks (pruned : dict tensor) (mk : dict masker) : dict tensor :=
  flat_map (fun np => if dmem mk (fst np) then [(fst np, nonzeros (snd np))] else []) pruned.
(** lottery.py:61-62: untrained_model.state_dict()[pname].mul_(mask) *)
Definition mask_one (u : dict tensor) (nm : string * tensor) : res (dict tensor) :=
  match dget u (fst nm) with
  | None => Raise KeyError
  | Some w => if Nat.eqb (length w) (length (snd nm)) then Ok (dset u (fst nm) (tmul w (snd nm))) else Raise RuntimeError
  end.

(** lottery.py:50-70 [extract_lottery_ticket]: [fresh_u], [fresh_p] are the parameters of the models created from the
    metadata of the files; each file comes with its optimizer's state.  The result: the file that is saved. *)
Definition extract_lottery_ticket {Opt} (fresh_u fresh_p : dict tensor) (untrained pruned : checkpoint * Opt) : res (checkpoint * Opt) :=
  do u <- load_checkpoint fresh_u (fst untrained);
  do p <- load_checkpoint fresh_p (fst pruned);
  let '(u, _, _) := u in
  let '(p, sched, _) := p in
  let optimizer := snd pruned in                      (* lines 52 and 55: the second assignment overwrites the first *)
  match sched with
  | None => Raise AttributeError                      (* None.zeros_mask_dict, or None.init_from_masks_dict *)
  | Some mk =>
      let masks := inferred_masks p mk in
      do u' <- foldM mask_one masks u;
      match init_from_masks_dict mk (map (fun nm => (fst nm, Some (snd nm))) masks) false with
      | (mk', None, _) => Ok (save_checkpoint 0 u' (Some mk'), optimizer)
      | (_, Some e, _) => Raise e
      end
  end.

(** Training from the loaded ticket with a scheduler without policies: each mini-batch, the optimizer changes every
    parameter in any way, and on_minibatch_end (scheduler.py:122-134) follows. *)
Definition batch {PS} (tbl : nat -> policy PS) (w : world PS) (b : Z * (string -> tensor -> tensor)) : res (world PS) :=
  on_minibatch_end tbl (fst b) 0 1 (with_params w (map (fun np => (fst np, snd b (fst np) (snd np))) (w_params w))).
Definition train {PS} (tbl : nat -> policy PS) (bs : list (Z * (string -> tensor -> tensor))) (w : world PS) : res (world PS) :=
  foldM (batch tbl) bs w.

(* ------------------------------------------------------------------------- *)
(** * Directives *)

(** a parameter: its name and requires_grad *)
Definition gparams := list (string * bool).
(** directives.py:38-57 [freeze_training]: model_find_param_name is neither defined in directives.py nor imported, so
    the first turn of the loop raises NameError; the parameters after, and the exception *)
Definition freeze_training (params : gparams) (which : list string) (freeze : bool) : gparams * option exn :=
  match params with [] => ([], None) | _ => (params, Some NameError) end.
(** directives.py:60-63 [freeze_all] *)
Definition freeze_all (params : gparams) (freeze : bool) : gparams := map (fun p => (fst p, negb freeze)) params.

(** modules: exactly one of the four dropout classes (with its probability), or anything else *)
Inductive mtree := Dropout (p : Q) (children : list mtree) | Module (children : list mtree).
(** directives.py:66-87 [adjust_dropout] *)
Fixpoint adjust_dropout (p : Q) (t : mtree) : mtree :=
  match t with
  | Dropout _ ch => Dropout p ch
  | Module ch => Module (map (adjust_dropout p) ch)
  end.

(* ------------------------------------------------------------------------- *)
(** * TrainingProgressCollector, collector.py:977-995 *)

(** the dictionaries in memory; number 0 is the default of the constructor's argument, made once *)
Definition dicts := list (dict Q).
Definition collector := nat.
(** __init__: with a dictionary of one's own, or without *)
Definition tp_new (own : option (dict Q)) (h : dicts) : dicts * collector :=
  match own with None => (h, 0) | Some d => (h ++ [d], length h) end.
Fixpoint upd_at (h : dicts) (i : nat) (f : dict Q -> dict Q) : dicts :=
  match h, i with [], _ => [] | d :: r, O => f d :: r | d :: r, S i => d :: upd_at r i f end.
(** __setattr__: every name goes to the statistics *)
Definition tp_set (c : collector) (name : string) (v : Q) (h : dicts) : dicts := upd_at h c (fun d => dset d name v).
(** attribute access: Python looks among the attributes of the object and of its class first, and only then calls
    __getattr__ (simplified: the dunder attributes every Python object has are left out) *)
Inductive attr := TpStats (d : dict Q) | TpMethod (name : string) | TpValue (v : Q).
Definition tp_methods : list string := ["value"; "__init__"; "__setattr__"; "__getattr__"]%string.
Definition tp_get (c : collector) (name : string) (h : dicts) : res attr :=
  if String.eqb name "_stats" then Ok (TpStats (nth c h []))
  else if existsb (String.eqb name) tp_methods then Ok (TpMethod name)
  else match dget (nth c h []) name with Some v => Ok (TpValue v) | None => Raise AttributeError end.
(** value() *)
Definition tp_value (c : collector) (h : dicts) : dict Q := nth c h [].
