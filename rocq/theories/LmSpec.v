(** What a language model is trained on and how it is judged (C112). *)
From Coq Require Import String List ZArith QArith Bool Arith.
From Verif Require Import Base LmModel.
Import ListNotations.
Open Scope list_scope.
Open Scope nat_scope.

(** the words of a text, with a mark behind each line *)
Definition text (file : list (list string)) : list string := flat_map (fun l => l ++ ["<eos>"%string]) file.
(** a dictionary is in order: the number of a word is its place in the list, each word is there once *)
Definition in_order (d : dictionary) : Prop :=
  NoDup (idx2word d) /\ forall w i, dget (word2idx d) w = Some i <-> nth_error (idx2word d) i = Some w.

(** the sum of the losses of all predictions: each row of tokens but the last goes in, the row behind it is what was to be predicted;
    the network runs over the rows without interruption *)
Fixpoint total_loss {St Out} (net : St -> list nat -> list Out * St) (loss : Out -> nat -> Q) (h : St) (rows : list (list nat)) : Q :=
  match rows with
  | r :: ((r' :: _) as rest) => (qsum (map2 loss (fst (net h r)) r') + total_loss net loss (snd (net h r)) rest)%Q
  | _ => 0%Q
  end.

(** the mean of the losses of batches a, a+1, .., a+n-1 *)
Definition mean_of (losses : list Q) (a n : nat) : Q := (qsum (firstn n (skipn a losses)) / inject_Z (Z.of_nat n))%Q.
