(** Model of the replay memory of the AMC agent: examples/auto_compression/amc/rl_libs/hanlab/memory.py and its use in
    agent.py:248-313 (train) and 123-126 (observe).

    Observations, actions and rewards are arbitrary; random indices are given as lists (what random.sample and
    np.random.random_integers return).  Not modelled: recent_observations (get_recent_state is not used), the conversion
    of the batches to numpy arrays, the networks. *)
From Coq Require Import String List ZArith Bool Arith.
From Verif Require Import Base.
Import ListNotations.
Open Scope list_scope.
Open Scope nat_scope.

(** memory.py:42-66: class RingBuffer; None: the initial content *)
Record ring (A : Type) := mkRing { maxlen : nat; start : nat; len : nat; data : list (option A) }.
Arguments mkRing {A}. Arguments maxlen {A}. Arguments start {A}. Arguments len {A}. Arguments data {A}.
Definition ring_new {A} (limit : nat) : ring A := mkRing limit 0 0 (repeat None limit).
Fixpoint put {A} (l : list A) (i : nat) (x : A) : list A :=
  match l, i with [], _ => [] | _ :: l', O => x :: l' | y :: l', S i' => y :: put l' i' x end.
(** __getitem__, 52-55 *)
Definition ring_get {A} (r : ring A) (idx : Z) : res A :=
  if (idx <? 0)%Z || (Z.of_nat (len r) <=? idx)%Z then Raise KeyError
  else match nth_error (data r) ((start r + Z.to_nat idx) mod maxlen r) with
       | Some (Some v) => Ok v
       | _ => Raise TypeError  (* a value None: never happens *)
       end.
(** append, 57-66 *)
Definition ring_append {A} (r : ring A) (v : A) : res (ring A) :=
  let store start' len' :=
    if maxlen r =? 0 then Raise ZeroDivisionError
    else Ok (mkRing (maxlen r) start' len' (put (data r) ((start' + len' - 1) mod maxlen r) (Some v))) in
  if len r <? maxlen r then store (start r) (S (len r))
  else if len r =? maxlen r then
    (if maxlen r =? 0 then Raise ZeroDivisionError else store ((start r + 1) mod maxlen r) (len r))
  else Raise RuntimeError.

Section Memory.
Variables Obs Act Rew : Type.
Variable zeroed : Obs -> Obs.  (* zeroed_observation *)

(** memory.py:126-138: class SequentialMemory, its four buffers *)
Record memory := mkMem { observations : ring Obs; actions : ring Act; rewards : ring Rew; terminals : ring bool }.
Definition mem_new (limit : nat) : memory := mkMem (ring_new limit) (ring_new limit) (ring_new limit) (ring_new limit).
Definition nb_entries (m : memory) : Z := Z.of_nat (len (observations m)).
(** append, 210-219 *)
Definition mem_append (m : memory) (e : Obs * Act * Rew * bool) : res memory :=
  let '(o, a, r, t) := e in
  do os <- ring_append (observations m) o; do az <- ring_append (actions m) a;
  do rs <- ring_append (rewards m) r; do ts <- ring_append (terminals m) t;
  Ok (mkMem os az rs ts).

Record experience := mkExp { state0 : list Obs; action : Act; reward : Rew; state1 : list Obs; terminal1 : bool }.

(** 153-159: the loop that looks for another index; None: the random numbers given were not enough *)
Fixpoint find_idx (m : memory) (draws : list Z) (idx : Z) : res (option (Z * list Z)) :=
  do terminal0 <- (if (2 <=? idx)%Z then ring_get (terminals m) (idx - 2) else Ok false);
  if terminal0 : bool then match draws with [] => Ok None | d :: ds => find_idx m ds d end
  else Ok (Some (idx, draws)).

(** 165-173: the earlier observations of the window, newest first in the loop; n: turns left *)
Fixpoint window (m : memory) (ignore : bool) (n : nat) (current_idx : Z) (state : list Obs) : res (list Obs) :=
  match n with
  | O => Ok state
  | S n' =>
      do current_terminal <- (if (0 <? current_idx - 1)%Z then ring_get (terminals m) (current_idx - 1) else Ok false);
      if (current_idx <? 0)%Z || (negb ignore && current_terminal) then Ok state
      else do o <- ring_get (observations m) current_idx; window m ignore n' (current_idx - 1) (o :: state)
  end.
(** 174-175 *)
Definition pad (window_length : nat) (state : list Obs) : list Obs :=
  match state with [] => [] | o :: _ => repeat (zeroed o) (window_length - length state) ++ state end.

(** 160-191: one experience *)
Definition experience_at (m : memory) (window_length : nat) (ignore : bool) (idx : Z) : res experience :=
  if negb ((1 <=? idx) && (idx <? nb_entries m))%Z then Raise AssertionError
  else
    do o <- ring_get (observations m) (idx - 1);
    do st <- window m ignore (window_length - 1) (idx - 2) [o];
    let s0 := pad window_length st in
    do a <- ring_get (actions m) (idx - 1);
    do r <- ring_get (rewards m) (idx - 1);
    do t <- ring_get (terminals m) (idx - 1);
    do o1 <- ring_get (observations m) idx;
    let s1 := tl s0 ++ [o1] in
    if negb ((length s0 =? window_length) && (length s1 =? length s0)) then Raise AssertionError
    else Ok (mkExp s0 a r s1 t).

Fixpoint experiences (m : memory) (window_length : nat) (ignore : bool) (idxs draws : list Z) : res (option (list experience)) :=
  match idxs with
  | [] => Ok (Some [])
  | idx :: rest =>
      do f <- find_idx m draws idx;
      match f with
      | None => Ok None
      | Some (i, draws') =>
          do e <- experience_at m window_length ignore i;
          do es <- experiences m window_length ignore rest draws';
          Ok (match es with Some l => Some (e :: l) | None => None end)
      end
  end.

(** sample, 140-193; batch_idxs: what sample_batch_indexes returned *)
Definition sample (m : memory) (window_length : nat) (ignore : bool) (batch_idxs draws : list Z) : res (option (list experience)) :=
  let idxs := map (fun i => (i + 1)%Z) batch_idxs in
  match idxs with
  | [] => Raise ValueError   (* np.min of an empty array *)
  | _ =>
      if forallb (fun i => (1 <=? i)%Z) idxs && forallb (fun i => (i <? nb_entries m)%Z) idxs
      then experiences m window_length ignore idxs draws
      else Raise AssertionError
  end.
(** sample_and_split, 205: what the agent multiplies the value of the next state with *)
Definition mask (e : experience) : Z := if terminal1 e then 0%Z else 1%Z.

(** sample_batch_indexes, 20-36: what it may return; None: np.random.random_integers refuses an empty range (ValueError) *)
Definition may_draw (low high : Z) (size : nat) (l : list Z) : Prop :=
  length l = size /\ Forall (fun i => (low <= i < high)%Z) l /\ ((Z.of_nat size <= high - low)%Z -> NoDup l).

(** agent.py:263-304: what one episode of train hands to observe: the steps (observation, action, reward) with the reward of
    the last one and whether the step was the last *)
Fixpoint with_done (final : Rew) (T : list (Obs * Act * Rew)) : list (Obs * Act * Rew * bool) :=
  match T with
  | [] => []
  | (o, a, _) :: rest => (o, a, final, match rest with [] => true | _ => false end) :: with_done final rest
  end.
Definition episode_entries (T : list (Obs * Act * Rew)) : list (Obs * Act * Rew * bool) :=
  match rev T with
  | [] => []
  | (_, _, final) :: _ => with_done final T
  end.
End Memory.
Arguments mkMem {Obs Act Rew}. Arguments observations {Obs Act Rew}. Arguments actions {Obs Act Rew}. Arguments rewards {Obs Act Rew}. Arguments terminals {Obs Act Rew}.
Arguments mem_new {Obs Act Rew}. Arguments mem_append {Obs Act Rew}. Arguments nb_entries {Obs Act Rew}.
Arguments mkExp {Obs Act Rew}. Arguments state0 {Obs Act Rew}. Arguments state1 {Obs Act Rew}. Arguments action {Obs Act Rew}. Arguments reward {Obs Act Rew}. Arguments terminal1 {Obs Act Rew}.
Arguments find_idx {Obs Act Rew}. Arguments experience_at {Obs Act Rew}. Arguments experiences {Obs Act Rew}. Arguments sample {Obs Act Rew}. Arguments mask {Obs Act Rew}.
Arguments with_done {Obs Act Rew}. Arguments episode_entries {Obs Act Rew}. Arguments window {Obs Act Rew}. Arguments pad {Obs}.
