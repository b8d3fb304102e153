(** Specification vocabulary for the scheduler properties: independent of the way the
    scheduler stores its policies and runs its loops. *)
From Coq Require Import String List ZArith QArith Bool Arith.
From Verif Require Import Base SchedModel.
Import ListNotations.

(** How many times the user asked for the policy of this add_policy call in epoch [e]. *)
Definition times_scheduled (a : add_args) (e : Z) : nat :=
  match ad_epochs a with
  | Some l => count_occ Z.eq_dec l e
  | None =>
      match ad_start a, ad_end a, ad_freq a with
      | Some st, Some en, Some fr =>
          if (Z.leb st e && Z.ltb e en && Z.eqb ((e - st) mod fr) 0)%bool then 1 else 0
      | _, _, _ => 0
      end
  end.

(** The calls an epoch should trigger: registration order, once per scheduled occurrence. *)
Definition expected_policies (adds : list add_args) (e : Z) : list nat :=
  flat_map (fun a => repeat (ad_policy a) (times_scheduled a e)) adds.

(** When add_policy must accept its arguments (docstring of add_policy). *)
Definition valid_add (a : add_args) : Prop :=
  (ad_epochs a = None /\
   exists st en fr, ad_start a = Some st /\ ad_end a = Some en /\ ad_freq a = Some fr /\
     (0 <= st < en)%Z /\ (0 < fr <= en - st)%Z)
  \/
  (exists l, ad_epochs a = Some l /\ l <> [] /\ ad_start a = None /\ ad_end a = None).

(** [masked p m]: the tensor [p] is zero at every position at which mask [m] is zero. *)
Definition masked (p m : tensor) : Prop :=
  forall i x y, nth_error m i = Some x -> nth_error p i = Some y -> x == 0 -> y == 0.

(** Every entry of a mask is 0 or 1. *)
Definition binary (m : tensor) : Prop := Forall (fun x => x == 0 \/ x == 1) m.

(** The tensor [p] with the entries where [m] is 0 replaced by 0. *)
Definition zero_where (m p q : tensor) : Prop :=
  length q = length p /\
  forall i x y, nth_error m i = Some x -> nth_error p i = Some y ->
    exists z, nth_error q i = Some z /\ (x == 0 -> z == 0) /\ (x == 1 -> z == y).

Section W.
Context {PS : Type}.
(** Every parameter with a mask that is not forward-only is masked. *)
Definition all_masked (w : world PS) : Prop :=
  forall n p mk m,
    dget (w_params w) n = Some p ->
    dget (w_maskers w) n = Some mk ->
    mk_mask mk = Some m ->
    mk_fwd_only mk = false ->
    masked p m.
End W.

(** The epoch and callback of a callback event. *)
Definition event_callback (ev : event) : option (callback * Z) :=
  match ev with
  | EvEpochBegin e => Some (CbEpochBegin, e)
  | EvMBBegin e _ _ => Some (CbMBBegin, e)
  | EvBackward e _ => Some (CbBackward, e)
  | EvBeforeOpt e _ _ => Some (CbBeforeOpt, e)
  | EvMBEnd e _ _ => Some (CbMBEnd, e)
  | EvEpochEnd e => Some (CbEpochEnd, e)
  | EvUpdate _ | EvMaskAll _ => None
  end.
