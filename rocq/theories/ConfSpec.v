(** What a schedule means. *)
From Coq Require Import String List ZArith Bool.
From Verif Require Import Base ConfModel.
Import ListNotations.
Local Open Scope string_scope.

Section Spec.
Context {Arg Obj Pol Sched : Type}.
Variable classes : string -> option (@cls Arg Obj).
Variable make_policy : pkind -> Obj -> option (dict Arg) -> res Pol.
Variable v_model v_optimizer : Arg.
Variable v_name : string -> Arg.
Variable v_last_epoch : Z -> Arg.

(** The arguments a constructor gets, key by key: nothing it does not accept; the component's name, the model and the extra
    values (optimizer, last epoch) in any case; otherwise what the user wrote. *)
Definition passed (c : @cls Arg Obj) (name : string) (extra user args : dict Arg) : Prop :=
  forall k, dget args k =
    if existsb (String.eqb k) (c_accepts c) then
      if String.eqb k "name" then Some (v_name name)
      else if String.eqb k "model" then Some v_model
      else match dget extra k with Some v => Some v | None => dget user k end
    else None.

(** [o] is the instance made of the component [name] of a section *)
Definition instance (extra : dict Arg) (sec : option (@section Arg)) (name : string) (o : Obj) : Prop :=
  exists l co cn c args, sec = Some l /\ In (name, co) l /\ co_class co = Some cn /\ classes cn = Some c /\
    (forall k, In k (dkeys (co_args co)) -> In k (c_accepts c)) /\ passed c name extra (co_args co) args /\ c_new c args = Ok o.

(** of several entries of a policy the first in this order counts *)
Definition order := [KPruner; KRegularizer; KQuantizer; KLr; KExtension].
Definition has_key (pd : @pdef Arg) (k : pkind) : Prop := In (key_of k) (dkeys (pd_refs pd)).
Definition chosen (pd : @pdef Arg) (k : pkind) : Prop :=
  exists l1 l2, order = (l1 ++ k :: l2)%list /\ has_key pd k /\ forall k', In k' l1 -> ~ has_key pd k'.

Definition extras (k : pkind) (resumed : option Z) : dict Arg :=
  match k with
  | KQuantizer => [("optimizer", v_optimizer)]
  | KLr => [("optimizer", v_optimizer); ("last_epoch", v_last_epoch (match resumed with Some e => e | None => (-1)%Z end))]
  | _ => []
  end.
Definition section_of (sd : @sdict Arg) (k : pkind) : option (@section Arg) :=
  match k with KPruner => sd_pruners sd | KRegularizer => sd_regularizers sd | KQuantizer => sd_quantizers sd | KLr => sd_lrs sd | KExtension => sd_extensions sd end.

(** the policy that a definition stands for: made of the instance it names, with its arguments for pruners and regularizers *)
Definition meant (sd : @sdict Arg) (resumed : option Z) (pd : @pdef Arg) (p : Pol) : Prop :=
  exists k r n o, chosen pd k /\ dget (pd_refs pd) (key_of k) = Some (Some r) /\ r_name r = Some n /\
    instance (extras k resumed) (section_of sd k) n o /\
    make_policy k o (match k with KPruner | KRegularizer => r_args r | _ => None end) = Ok p.
(** when it is active: the list of epochs, if there is one, otherwise first, last and frequency *)
Definition timed (pd : @pdef Arg) (w : when) : Prop :=
  match pd_epochs pd with
  | Some e => w = WEpochs e
  | None => exists a b f, pd_start pd = Some a /\ pd_end pd = Some b /\ pd_freq pd = Some f /\ w = WRange a b f
  end.
End Spec.

(** dictionaries: different keys *)
Definition dict_ok {A} (d : dict A) : Prop := NoDup (dkeys d).
Definition comps_ok {Arg} (s : option (@section Arg)) : Prop :=
  match s with None => True | Some l => dict_ok l /\ forall n co, In (n, co) l -> dict_ok (co_args co) /\ ~ In "self" (dkeys (co_args co)) end.
Definition sched_ok {Arg} (sd : @sdict Arg) : Prop :=
  comps_ok (sd_pruners sd) /\ comps_ok (sd_regularizers sd) /\ comps_ok (sd_quantizers sd) /\ comps_ok (sd_extensions sd) /\ comps_ok (sd_lrs sd).
