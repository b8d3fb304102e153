(** Model of the schedule configuration, distiller/config.py:52-217, and of filter_kwargs, distiller/utils.py:726-743.

    Values of arguments, component instances, policies and schedulers are arbitrary; constructing a component, making a policy of
    it and adding a policy to the scheduler are arbitrary functions that may raise (the model of the scheduler's add_policy is
    instantiated for them in the theorems).

    Simplifications: a section, when present, is a dictionary of dictionaries; the schedule can be written as JSON (the log
    message does that first); messages are not modelled. *)
From Coq Require Import String List ZArith Bool.
From Verif Require Import Base.
Import ListNotations.
Local Open Scope string_scope.

Section Config.
Context {Arg Obj Pol Sched : Type}.

(** a class: the names of the arguments of its constructor (without [self]), and what calling it does *)
Record cls := mkCls { c_accepts : list string; c_new : dict Arg -> res Obj }.
(** the names of config.py: the classes imported there *)
Variable classes : string -> option cls.
(** what a policy is made of: PruningPolicy(pruner, args), RegularizationPolicy(regularizer, args as keywords), QuantizationPolicy(quantizer),
    LRPolicy(lr_scheduler), the extension itself *)
Inductive pkind := KPruner | KRegularizer | KQuantizer | KLr | KExtension.
Variable make_policy : pkind -> Obj -> option (dict Arg) -> res Pol.
(** scheduler.add_policy(policy, epochs=...) / (policy, starting_epoch=..., ending_epoch=..., frequency=...); None is null *)
Inductive when := WEpochs (l : option (list Z)) | WRange (first last freq : option Z).
Variable add : Sched -> Pol -> when -> res Sched.
(** the objects passed to every constructor that accepts them *)
Variable v_model v_optimizer : Arg.
Variable v_name : string -> Arg.
Variable v_last_epoch : Z -> Arg.

(** the definition of a component: 'class' (until it is popped), and the other entries *)
Record comp := mkComp { co_class : option string; co_args : dict Arg }.
Definition section := dict comp.
(** a reference of a policy: instance_name, args *)
Record pref := mkRef { r_name : option string; r_args : option (dict Arg) }.
(** the definition of a policy: its entries by key (null is None), and its times (absent, null, value) *)
Record pdef := mkDef { pd_refs : dict (option pref); pd_epochs : option (option (list Z)); pd_start : option (option Z); pd_end : option (option Z); pd_freq : option (option Z) }.
Record sdict := mkSd { sd_pruners : option section; sd_regularizers : option section; sd_quantizers : option section; sd_extensions : option section; sd_lrs : option section; sd_policies : option (list pdef) }.

(** filter_kwargs, utils.py:726-743: the arguments that the constructor's signature has, and the others.  The signature of
    class_.__init__ contains [self]. *)
Definition in_sig (c : cls) (k : string) : bool := existsb (String.eqb k) ("self" :: c_accepts c).
Definition filter_kwargs (c : cls) (d : dict Arg) : dict Arg * dict Arg :=
  (filter (fun kv => in_sig c (fst kv)) d, filter (fun kv => negb (in_sig c (fst kv))) d).
(** the call of the class: [self] is given already *)
Definition new (c : cls) (args : dict Arg) : res Obj := if dmem args "self" then Raise TypeError else c_new c args.
Definition update (d extra : dict Arg) : dict Arg := fold_left (fun d kv => dset d (fst kv) (snd kv)) extra d.

(** build_component, config.py:190-211: the instance, and the component without its 'class' *)
Definition build_component (name : string) (co : comp) (extra : dict Arg) : res Obj * comp :=
  match co_class co with
  | None => (Raise KeyError, co)
  | Some cn =>
      (match classes cn with
       | None => Raise ValueError
       | Some c =>
           let (valid, invalid) := filter_kwargs c (co_args co) in
           match invalid with
           | _ :: _ => Raise ValueError
           | [] => let valid := dset (dset (update valid extra) "model" v_model) "name" (v_name name) in
                   new c (fst (filter_kwargs c valid))
           end
       end, mkComp None (co_args co))
  end.

(** __factory, config.py:175-187: the loop stops at the first exception *)
Fixpoint factory_loop (extra : dict Arg) (l : section) : res (dict Obj) * section :=
  match l with
  | [] => (Ok [], [])
  | (n, co) :: l =>
      match build_component n co extra with
      | (Raise e, co) => (Raise e, (n, co) :: l)
      | (Ok o, co) => match factory_loop extra l with
                      | (Ok r, l) => (Ok ((n, o) :: r), (n, co) :: l)
                      | (Raise e, l) => (Raise e, (n, co) :: l)
                      end
      end
  end.
Definition factory (extra : dict Arg) (s : option section) : res (dict Obj) * option section :=
  match s with None => (Ok [], None) | Some l => let (r, l) := factory_loop extra l in (r, Some l) end.

Definition key_of (k : pkind) : string :=
  match k with KPruner => "pruner" | KRegularizer => "regularizer" | KQuantizer => "quantizer" | KLr => "lr_scheduler" | KExtension => "extension" end.
(** __policy_params, config.py:214-217 *)
Definition policy_params (pd : pdef) (k : pkind) : res (string * option (dict Arg)) :=
  match dget (pd_refs pd) (key_of k) with
  | None => Raise KeyError
  | Some None => Raise TypeError
  | Some (Some r) => match r_name r with None => Raise KeyError | Some n => Ok (n, r_args r) end
  end.

Record insts := mkInsts { i_pruners : dict Obj; i_regularizers : dict Obj; i_quantizers : dict Obj; i_extensions : dict Obj; i_lrs : dict Obj }.
Definition insts_of (cs : insts) (k : pkind) : dict Obj :=
  match k with KPruner => i_pruners cs | KRegularizer => i_regularizers cs | KQuantizer => i_quantizers cs | KLr => i_lrs cs | KExtension => i_extensions cs end.
(** instance_name, args = __policy_params(...); assert instance_name in ...; policy = ...; the arguments are used for pruners and
    regularizers only *)
Definition policy_from (cs : insts) (pd : pdef) (k : pkind) : res Pol :=
  do na <- policy_params pd k;
  match dget (insts_of cs k) (fst na) with
  | None => Raise AssertionError
  | Some o => make_policy k o (match k with KPruner | KRegularizer => snd na | _ => None end)
  end.
(** the branches of the loop, config.py:66-110; None: postponed *)
Definition policy_of (cs : insts) (pd : pdef) : res (option Pol) :=
  let has k := dmem (pd_refs pd) (key_of k) in
  if has KPruner then do p <- policy_from cs pd KPruner; Ok (Some p)
  else if has KRegularizer then do p <- policy_from cs pd KRegularizer; Ok (Some p)
  else if has KQuantizer then do p <- policy_from cs pd KQuantizer; Ok (Some p)
  else if has KLr then Ok None
  else if has KExtension then do p <- policy_from cs pd KExtension; Ok (Some p)
  else Raise ValueError.
(** add_policy_to_scheduler, config.py:133-139 *)
Definition when_of (pd : pdef) : res when :=
  match pd_epochs pd with
  | Some e => Ok (WEpochs e)
  | None => match pd_start pd, pd_end pd, pd_freq pd with
            | Some a, Some b, Some f => Ok (WRange a b f)
            | _, _, _ => Raise KeyError
            end
  end.
Definition add_policy_to_scheduler (p : Pol) (pd : pdef) (s : Sched) : res Sched := do w <- when_of pd; add s p w.

(** the loop over the policies: the postponed ones, and the scheduler as far as it was filled *)
Fixpoint policies_loop (cs : insts) (pds : list pdef) (s : Sched) (lrs : list pdef) : res (list pdef) * Sched :=
  match pds with
  | [] => (Ok lrs, s)
  | pd :: pds =>
      match policy_of cs pd with
      | Raise e => (Raise e, s)
      | Ok None => policies_loop cs pds s (lrs ++ [pd])%list
      | Ok (Some p) => match add_policy_to_scheduler p pd s with
                       | Raise e => (Raise e, s)
                       | Ok s => policies_loop cs pds s lrs
                       end
      end
  end.
(** the loop over the postponed policies, config.py:113-121 *)
Fixpoint lr_loop (cs : insts) (pds : list pdef) (s : Sched) : res unit * Sched :=
  match pds with
  | [] => (Ok tt, s)
  | pd :: pds =>
      match (do p <- policy_from cs pd KLr; add_policy_to_scheduler p pd s) with
      | Raise e => (Raise e, s)
      | Ok s => lr_loop cs pds s
      end
  end.
(** the exception handlers, config.py:123-129: the second one prints policy_def, which is unbound (UnboundLocalError, a
    NameError) before the first policy *)
Definition handler (bound : bool) {A} (r : res A) : res A :=
  match r with
  | Ok a => Ok a
  | Raise AssertionError => Raise AssertionError
  | Raise e => if bound then Raise e else Raise NameError
  end.

(** dict_config, config.py:52-130: the outcome, the scheduler, and what has become of the caller's dictionary *)
Definition dict_config (sd : sdict) (s : Sched) (resumed_epoch : option Z) : res unit * Sched * sdict :=
  let opt := [("optimizer", v_optimizer)] in
  let '(rp, sp) := factory [] (sd_pruners sd) in
  let sd := mkSd sp (sd_regularizers sd) (sd_quantizers sd) (sd_extensions sd) (sd_lrs sd) (sd_policies sd) in
  match rp with Raise e => (Raise e, s, sd) | Ok pruners =>
  let '(rr, sr) := factory [] (sd_regularizers sd) in
  let sd := mkSd (sd_pruners sd) sr (sd_quantizers sd) (sd_extensions sd) (sd_lrs sd) (sd_policies sd) in
  match rr with Raise e => (Raise e, s, sd) | Ok regularizers =>
  let '(rq, sq) := factory opt (sd_quantizers sd) in
  let sd := mkSd (sd_pruners sd) (sd_regularizers sd) sq (sd_extensions sd) (sd_lrs sd) (sd_policies sd) in
  match rq with Raise e => (Raise e, s, sd) | Ok quantizers =>
  if Nat.ltb 1 (length quantizers) then (Raise ValueError, s, sd) else
  let '(re, se) := factory [] (sd_extensions sd) in
  let sd := mkSd (sd_pruners sd) (sd_regularizers sd) (sd_quantizers sd) se (sd_lrs sd) (sd_policies sd) in
  match re with Raise e => (Raise e, s, sd) | Ok extensions =>
  match sd_policies sd with
  | None => (Raise NameError, s, sd)   (* the KeyError's handler *)
  | Some pds =>
      let bound := match pds with [] => false | _ => true end in
      match policies_loop (mkInsts pruners regularizers quantizers extensions []) pds s [] with
      | (Raise e, s) => (handler bound (Raise e), s, sd)
      | (Ok lrs, s) =>
          let '(rl, sl) := factory (opt ++ [("last_epoch", v_last_epoch (match resumed_epoch with Some e => e | None => (-1)%Z end))])%list (sd_lrs sd) in
          let sd := mkSd (sd_pruners sd) (sd_regularizers sd) (sd_quantizers sd) (sd_extensions sd) sl (sd_policies sd) in
          match rl with
          | Raise e => (handler bound (Raise e), s, sd)
          | Ok lr => let (r, s) := lr_loop (mkInsts pruners regularizers quantizers extensions lr) lrs s in (handler bound r, s, sd)
          end
      end
  end end end end end.

(** config_component_from_file_by_class, config.py:154-172, on the sections of the file (without 'policies') *)
Fixpoint find_component (cn : string) (l : list (string * comp)) : res (option (string * comp)) :=
  match l with
  | [] => Ok None
  | (n, co) :: l => match co_class co with
                    | None => Raise KeyError
                    | Some c => if String.eqb c cn then Ok (Some (n, co)) else find_component cn l
                    end
  end.
Definition config_component_by_class (sections : list section) (cn : string) (extra : dict Arg) : res Obj :=
  do f <- find_component cn (concat sections);
  match f with
  | None => Raise ValueError
  | Some (n, co) => fst (build_component n (mkComp (co_class co) (update (co_args co) extra)) [])
  end.
End Config.
