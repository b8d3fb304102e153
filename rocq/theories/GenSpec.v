(** What translating one sentence on its own is, and what it means for a network to treat the sentences of a batch
    independently of each other. *)
From Coq Require Import List Arith Bool.
From Verif Require Import Base SmpModel.
Import ListNotations.

Section Spec.
Context {E H : Type}.
(** the network on one sentence: the encoder's state, the length, the hidden state (none at first), the last word; it
    gives the next word and the next hidden state *)
Variable step : E -> nat -> option H -> nat -> nat * H.
(** the words the network gives for one sentence: up to and with EOS, at most [n] *)
Fixpoint decode (n : nat) (e : E) (l : nat) (h : option H) (w : nat) : list nat :=
  match n with
  | 0 => []
  | S n => let (w', h') := step e l h w in if Nat.eqb w' EOS then [w'] else w' :: decode n e l (Some h') w'
  end.
(** one sentence of the batch: its encoder state, length, hidden state and last word *)
Definition srow := (E * nat * option H * nat)%type.
Definition step_row (r : srow) : nat * H := let '(e, l, h, w) := r in step e l h w.
Definition r_enc (r : srow) : E := fst (fst (fst r)).
Definition r_len (r : srow) : nat := snd (fst (fst r)).
Definition r_hid (r : srow) : option H := snd (fst r).
Definition r_word (r : srow) : nat := snd r.
(** the hidden states of a batch as one tensor: none for all, or one for each *)
Inductive hiddens : list srow -> option (list H) -> Prop :=
| hid_none rows : Forall (fun r => r_hid r = None) rows -> hiddens rows None
| hid_some rows hs : map r_hid rows = map Some hs -> hiddens rows (Some hs).
(** on a batch the network does to every sentence what it does to it alone *)
Definition independent (generate : list nat -> list E * list nat * option (list H) -> list nat * list H) : Prop :=
  forall rows hs, hiddens rows hs ->
    generate (map r_word rows) (map r_enc rows, map r_len rows, hs) = (map (fun r => fst (step_row r)) rows, map (fun r => snd (step_row r)) rows).
(** the encoder's result for a sentence does not depend on the others, nor on the padding *)
Definition encodes (encode : list (list nat) -> list nat -> list E) (enc1 : list nat -> E) : Prop :=
  forall seqs rows lens, collate_seq seqs = Ok (rows, lens) -> encode rows lens = map enc1 seqs.
End Spec.
