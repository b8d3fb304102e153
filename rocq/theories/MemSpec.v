(** Specification of the replay memory (C110): sequences of entries and the steps of episodes. *)
From Coq Require Import List ZArith Arith.
Import ListNotations.
Open Scope list_scope.
Open Scope nat_scope.

(** how many of n values a buffer of a given size still holds, and the first one it holds *)
Definition held (n limit : nat) : nat := Nat.min n limit.
Definition oldest (n limit : nat) : nat := n - held n limit.

Section S.
Variables Obs Act Rew : Type.
(** step t of an episode (a list of observation, action, reward), what follows, and the reward of the last step *)
Definition is_step (ep : list (Obs * Act * Rew)) (t : nat) (o : Obs) (a : Act) : Prop := exists r, nth_error ep t = Some (o, a, r).
Definition is_last (ep : list (Obs * Act * Rew)) (t : nat) : Prop := S t = length ep.
Definition final_reward (ep : list (Obs * Act * Rew)) (r : Rew) : Prop := exists o a, nth_error ep (length ep - 1) = Some (o, a, r).
End S.
Arguments is_step {Obs Act Rew}. Arguments is_last {Obs Act Rew}. Arguments final_reward {Obs Act Rew}.
