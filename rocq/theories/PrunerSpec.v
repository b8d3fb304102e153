(** Specification vocabulary for pruners: histories of set_param_mask calls. *)
From Coq Require Import String List ZArith QArith Bool.
From Verif Require Import Base SchedModel.
Import ListNotations.

Section H.
Context {PS : Type}.

(** One call of a pruner's set_param_mask for parameter [n] with metadata [me] and weights [t]. *)
Definition call := (meta * string * tensor)%type.
Definition call_name (c : call) : string := snd (fst c).

(** Calls in any order on any parameters, threading the pruner's state and the mask of each
    parameter (initially no mask). *)
Definition call_one (pr : pruner PS) (st : PS * (string -> option tensor)) (c : call)
  : res (PS * (string -> option tensor)) :=
  let '(me, n, t) := c in
  do r <- pr (fst st) me n t (snd st n);
  Ok (fst r, fun n' => if String.eqb n' n then snd r else snd st n').

Definition calls (pr : pruner PS) (ps0 : PS) (h : list call) : res (PS * (string -> option tensor)) :=
  foldM (call_one pr) h (ps0, fun _ => None).
End H.

(** The weight tensors presented for parameter [n], oldest first. *)
Definition weights_of (n : string) (h : list call) : list tensor :=
  map snd (filter (fun c => String.eqb n (call_name c)) h).
