(** Specification of the batch samplers and of the sentence batches, without the model's helpers. *)
From Coq Require Import String List Arith Bool Lia Permutation Sorted.
From Verif Require Import Base.
Import ListNotations.
Open Scope list_scope.
Open Scope nat_scope.

(** the samples of group [g], in the order of the sampler *)
Definition of_group (gid : nat -> nat) (g : nat) (l : list nat) : list nat := filter (fun i => Nat.eqb (gid i) g) l.
(** a batch of one group: [bs] samples of group [g] of the sampler *)
Definition group_batch (gid : nat -> nat) (bs : nat) (sampler b : list nat) (g : nat) : Prop :=
  length b = bs /\ forall i, In i b -> gid i = g /\ In i sampler.
(** the samples left over when full batches are cut off the front of a group *)
Definition leftover (bs : nat) (l rest : list nat) : Prop := exists full, l = full ++ rest /\ length rest < bs /\ exists q, length full = q * bs.

(** the [r]-th piece, of [bs] elements, of a global batch *)
Definition piece (bs r : nat) (row : list nat) : list nat := firstn bs (skipn (r * bs) row).
(** sequences in column [c] of a batch whose rows are positions *)
Definition column (c pad : nat) (rows : list (list nat)) : list nat := map (fun row => nth c row pad) rows.
(** the number of a token: its last occurrence in the vocabulary *)
Definition last_at (vocab : list string) (w : string) (i : nat) : Prop :=
  nth_error vocab i = Some w /\ forall j, i < j -> nth_error vocab j <> Some w.
