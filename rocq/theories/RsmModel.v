(** Model of starting and resuming a session of the sample application:
    distiller/apputils/image_classifier.py:381-425 [_init_learner], 172-196 [run_training_loop] as far as
    learning rates and checkpoints go, with distiller/config.py:53-128 [dict_config] (the LR schedulers),
    distiller/policy.py:300-314 [LRPolicy] and the optimizer's part of
    distiller/apputils/checkpoint.py (load 140-162, save 72-74).

    Learning rates are values of any type.  An LR scheduler of torch 1.3 that derives from _LRScheduler
    (and distiller's own two, C36) computes the rates of an epoch from the initial rates: an arbitrary
    function.  ReduceLROnPlateau is an arbitrary machine that sees the metric.  Models, masks and the rest
    of a compression schedule are opaque. *)
From Coq Require Import String List ZArith Bool Arith.
From Verif Require Import Base.
Import ListNotations.

Section Rsm.
Variables (V P Metric Mo Sc : Type).

(** one parameter group: 'lr' and, once an LR scheduler was made, 'initial_lr' *)
Record group := mkGr { lr : V; initial : option V }.

Inductive kind :=
| Closed (f : list V -> Z -> list V)
| Plateau (p0 : P) (pstep : P -> Metric -> list V -> P * list V).
Inductive obj :=
| OClosed (f : list V -> Z -> list V) (base : list V)
| OPlateau (p : P) (pstep : P -> Metric -> list V -> P * list V).

(** for param_group, lr in zip(param_groups, ...): param_group['lr'] = lr *)
Fixpoint set_lrs (gs : list group) (ls : list V) : list group :=
  match gs, ls with
  | g :: gs', l :: ls' => mkGr l (initial g) :: set_lrs gs' ls'
  | _, _ => gs
  end.
Definition lrs (gs : list group) : list V := map lr gs.

(** torch _LRScheduler.__init__ (torch 1.3): with last_epoch = -1 the initial rates are set unless they
    are there, otherwise they must be there; then one step *)
Definition setdefault_initial (g : group) : group :=
  mkGr (lr g) (Some (match initial g with Some v => v | None => lr g end)).
Fixpoint initials (gs : list group) : res (list V) :=
  match gs with
  | [] => Ok []
  | g :: r => match initial g with
              | None => Raise KeyError
              | Some v => do l <- initials r; Ok (v :: l)
              end
  end.
Definition construct (k : kind) (last_epoch : Z) (gs : list group) : res (obj * list group) :=
  match k with
  | Closed f =>
      let gs := if Z.eqb last_epoch (-1) then map setdefault_initial gs else gs in
      do base <- initials gs;
      Ok (OClosed f base, set_lrs gs (f base (last_epoch + 1)%Z))
  | Plateau p0 st => Ok (OPlateau p0 st, gs)        (* takes no last_epoch: filter_kwargs drops it *)
  end.

(** the 'lr_schedulers' section in its order, and the policies that use them: position in the section,
    and whether the policy is scheduled for an epoch (C01) *)
Record config := mkCfg { c_lrs : list kind; c_pols : list (nat * (Z -> bool)) }.

(** config.py:112-114: all LR schedulers are made, used or not; a missing optimizer is a TypeError of
    torch's constructors *)
Fixpoint make_all (ks : list kind) (last_epoch : Z) (o : option (list group)) : res (list obj * option (list group)) :=
  match ks with
  | [] => Ok ([], o)
  | k :: r => match o with
              | None => Raise TypeError
              | Some gs => do a <- construct k last_epoch gs;
                           do b <- make_all r last_epoch (Some (snd a));
                           Ok (fst a :: fst b, snd b)
              end
  end.

(** policy.py:308-314 [LRPolicy.on_epoch_end] *)
Definition step_obj (o : obj) (epoch : Z) (m : Metric) (gs : list group) : obj * list group :=
  match o with
  | OClosed f base => (o, set_lrs gs (f base epoch))
  | OPlateau p st => let '(p', ls) := st p m (lrs gs) in (OPlateau p' st, set_lrs gs ls)
  end.
Fixpoint replace_at {A} (i : nat) (x : A) (l : list A) : list A :=
  match l, i with
  | [], _ => []
  | _ :: r, O => x :: r
  | a :: r, S i' => a :: replace_at i' x r
  end.
(** scheduler.on_epoch_end: the LR policies scheduled for the epoch, in the order of the file *)
Definition epoch_end (pols : list (nat * (Z -> bool))) (e : Z) (m : Metric) (st : list obj * list group) : list obj * list group :=
  fold_left (fun (st : list obj * list group) (p : nat * (Z -> bool)) =>
    if snd p e then
      match nth_error (fst st) (fst p) with
      | None => st
      | Some o => let '(o', gs') := step_obj o (e + 1)%Z m (snd st) in (replace_at (fst p) o' (fst st), gs')
      end
    else st) pols st.

(** a checkpoint's epoch and the optimizer's groups *)
Record ckpt := mkCk { ck_epoch : Z; ck_opt : option (list group) }.

(** checkpoint.py:140-162 [_load_optimizer]: an optimizer with one group (all parameters) is created, then
    torch's load_state_dict takes the groups over if there are as many *)
Definition load_optimizer (c : ckpt) : res (option (list group)) :=
  match ck_opt c with
  | None => Ok None                                   (* KeyError, caught *)
  | Some gs => if Nat.eqb (length gs) 1 then Ok (Some gs) else Raise ValueError
  end.

(** what _init_learner reads of the arguments; paths are replaced by the loaded contents *)
Record largs := mkArgs {
  a_lr : V;
  a_resume_from : option ckpt;          (* --resume-from *)
  a_resume : option ckpt;               (* --resume, deprecated *)
  a_weights : bool;                     (* --exp-load-weights-from *)
  a_reset : bool;                       (* --reset-optimizer *)
  a_evaluate : bool;
  a_compress : option config;
  a_epochs : Z }.

Inductive source := Created | Resumed | Weights.
Record learner := mkL { l_source : source; l_sched_loaded : bool; l_opt : option (list group);
                        l_objs : list obj; l_start : Z; l_end : Z }.

(** image_classifier.py:381-425 [_init_learner].  [l_source]: where the weights come from;
    [l_sched_loaded]: the scheduler is the one of the checkpoint (saved by the application always). *)
Definition init_learner (a : largs) : res learner :=
  let reset := match a_resume a with Some _ => true | None => a_reset a end in
  let path := match a_resume a with Some c => Some c | None => a_resume_from a end in
  do loaded <- match path with
               | Some c => do o <- load_optimizer c; Ok (Resumed, true, o, (ck_epoch c + 1)%Z)
               | None => Ok (if a_weights a then Weights else Created, false, None, 0%Z)
               end;
  let '(src, sched, o, start) := loaded in
  let '(start, o) := if reset then (0%Z, None) else (start, o) in
  let o := match o with
           | None => if a_evaluate a then None else Some [mkGr (a_lr a) None]
           | Some gs => Some gs
           end in
  match a_compress a with
  | Some cfg =>
      do r <- make_all (c_lrs cfg) (match path with Some _ => (start - 1)%Z | None => (-1)%Z end) o;
      Ok (mkL src sched (snd r) (fst r) start (a_epochs a))
  | None => Ok (mkL src sched o [] start (a_epochs a))
  end.

(** [n] epochs of the training loop from epoch [e]: the rates used in each, and the state after *)
Fixpoint epochs (pols : list (nat * (Z -> bool))) (metric : Z -> Metric) (e : Z) (n : nat) (st : list obj * list group)
    : list (Z * list V) * (list obj * list group) :=
  match n with
  | O => ([], st)
  | S n' => let st' := epoch_end pols e (metric e) st in
            let r := epochs pols metric (e + 1)%Z n' st' in
            ((e, lrs (snd st)) :: fst r, snd r)
  end.

(** A session of the application: init_learner, then [n] complete epochs and, if it crashes, the
    beginning of one more.  Result: the rates used per epoch (a begun epoch included), and the last
    checkpoint written, if any. *)
Definition session (a : largs) (metric : Z -> Metric) (n : nat) : res (list (Z * list V) * option ckpt) :=
  do l <- init_learner a;
  match l_opt l with
  | None => Raise AttributeError                       (* optimizer.zero_grad() of None *)
  | Some gs =>
      let pols := match a_compress a with Some c => c_pols c | None => [] end in
      let r := epochs pols metric (l_start l) n (l_objs l, gs) in
      let e := (l_start l + Z.of_nat n)%Z in
      Ok (fst r ++ [(e, lrs (snd (snd r)))],
          match n with O => None | S _ => Some (mkCk (e - 1) (Some (snd (snd r)))) end)
  end.

(** A training interrupted any number of times: the first session is fresh, each later one resumes from
    the last checkpoint written so far (is started anew if there is none).  [ns]: complete epochs per
    session. *)
Fixpoint history (a : largs) (metric : Z -> Metric) (last : option ckpt) (ns : list nat) : res (list (Z * list V)) :=
  match ns with
  | [] => Ok []
  | n :: r =>
      do s <- session (mkArgs (a_lr a) last None (a_weights a) (a_reset a) (a_evaluate a) (a_compress a) (a_epochs a)) metric n;
      do t <- history a metric (match snd s with Some c => Some c | None => last end) r;
      Ok (fst s ++ t)
  end.
End Rsm.
Arguments mkGr {V}. Arguments lr {V}. Arguments initial {V}.
Arguments Closed {V P Metric}. Arguments Plateau {V P Metric}.
Arguments OClosed {V P Metric}. Arguments OPlateau {V P Metric}.
Arguments lrs {V}. Arguments set_lrs {V}. Arguments initials {V}. Arguments setdefault_initial {V}. 
Arguments construct {V P Metric}. Arguments mkCfg {V P Metric}. Arguments c_lrs {V P Metric}. Arguments c_pols {V P Metric}.
Arguments make_all {V P Metric}. Arguments step_obj {V P Metric}. Arguments replace_at {A}. Arguments epoch_end {V P Metric}.
Arguments mkCk {V}. Arguments ck_epoch {V}. Arguments ck_opt {V}. Arguments load_optimizer {V}.
Arguments mkArgs {V P Metric}. Arguments a_lr {V P Metric}. Arguments a_resume_from {V P Metric}. Arguments a_resume {V P Metric}.
Arguments a_weights {V P Metric}. Arguments a_reset {V P Metric}. Arguments a_evaluate {V P Metric}. Arguments a_compress {V P Metric}.
Arguments a_epochs {V P Metric}. Arguments mkL {V P Metric}. Arguments l_source {V P Metric}. Arguments l_sched_loaded {V P Metric}.
Arguments l_opt {V P Metric}. Arguments l_objs {V P Metric}. Arguments l_start {V P Metric}. Arguments l_end {V P Metric}.
Arguments init_learner {V P Metric}. Arguments epochs {V P Metric}. Arguments session {V P Metric}. Arguments history {V P Metric}.
