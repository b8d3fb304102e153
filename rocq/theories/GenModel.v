(** Model of the translation of a batch of sentences in examples/GNMT: SequenceGenerator.greedy_search
    (seq2seq/inference/beam_search.py:30-82), Translator.translate (seq2seq/inference/inference.py:37-88) and
    batch_padded_sequences (seq2seq/utils.py:92-108).

    Simplifications: the network is a parameter (encode, and generate with beam 1, which keeps the encoder states and the
    lengths and gives a new hidden state); the tensors' feature dimensions are not modelled, so batch_first only says which
    dimension is the batch, the one that is modelled here; cuda is not modelled; detokenize (C117) is a parameter that
    does not fail; the counters of the statistics are the values, without the dictionary. *)
From Coq Require Import String List Arith Bool Lia.
From Verif Require Import Base SmpModel.
Import ListNotations.
Open Scope list_scope.
Open Scope nat_scope.

(** t[i] = f(t[i]) *)
Fixpoint upd {A} (l : list A) (i : nat) (f : A -> A) : list A :=
  match l, i with
  | [], _ => []
  | x :: l, 0 => f x :: l
  | x :: l, S i => x :: upd l i f
  end.
(** translation[active, idx] = words *)
Definition put_words (tr : list (list nat)) (active : list nat) (idx : nat) (words : list nat) : list (list nat) :=
  fold_left (fun t iw => upd t (fst iw) (fun row => upd row idx (fun _ => snd iw))) (combine active words) tr.
(** lengths[active] += 1 (the active sentences are different) *)
Definition add_one (lens : list nat) (active : list nat) : list nat := fold_left (fun t i => upd t i S) active lens.
(** Tensor.masked_select *)
Fixpoint masked_select {A} (l : list A) (m : list bool) : list A :=
  match l, m with x :: l, b :: m => if b then x :: masked_select l m else masked_select l m | _, _ => [] end.
(** Tensor.index_select along the dimension of the batch, and words[mask] *)
Fixpoint index_select {A} (l : list A) (is : list nat) : res (list A) :=
  match is with
  | [] => Ok []
  | i :: is => match nth_error l i with None => Raise IndexError | Some x => do r <- index_select l is; Ok (x :: r) end
  end.

Section Net.
(** what the encoder gives for a sentence, and the decoder's hidden state of a sentence *)
Context {E H : Type}.
(** model.generate(words, context, 1): the most probable words and the new hidden states; at first there are none *)
Variable generate : list nat -> list E * list nat * option (list H) -> list nat * list H.

(** the state of the loop: translation, lengths, active, words, context, counter *)
Record gs := mkGs { g_tr : list (list nat); g_len : list nat; g_active : list nat; g_words : list nat;
                    g_enc : list E; g_elen : list nat; g_hid : option (list H); g_counter : nat }.
(** one turn, beam_search.py:57-80 *)
Definition greedy_step (base_mask : list nat) (idx : nat) (s : gs) : res gs :=
  let '(words, hid) := generate (g_words s) (g_enc s, g_elen s, g_hid s) in
  let tr := put_words (g_tr s) (g_active s) idx words in
  let lens := add_one (g_len s) (g_active s) in
  let counter := S (g_counter s) in
  let terminating := map (Nat.eqb EOS) words in
  if existsb (fun b => b) terminating then
    let not_terminating := map negb terminating in
    let mask := masked_select (firstn (length (g_active s)) base_mask) not_terminating in
    let active := masked_select (g_active s) not_terminating in
    do words <- index_select words mask;
    do enc <- index_select (g_enc s) mask;
    do elen <- index_select (g_elen s) mask;
    do hid <- index_select hid mask;
    Ok (mkGs tr lens active words enc elen (Some hid) counter)
  else Ok (mkGs tr lens (g_active s) words (g_enc s) (g_elen s) (Some hid) counter).
(** the loop, lines 54-80: idx, and the number of the turns that are left *)
Fixpoint greedy_loop (base_mask : list nat) (n idx : nat) (s : gs) : res gs :=
  match n with
  | 0 => Ok s
  | S n => if Nat.eqb (length (g_active s)) 0 then Ok s
           else do s <- greedy_step base_mask idx s; greedy_loop base_mask n (S idx) s
  end.
(** greedy_search, lines 30-82: translation, lengths, counter *)
Definition greedy_search (max_seq_len batch_size : nat) (words : list nat) (context : list E * list nat * option (list H))
  : res (list (list nat) * list nat * nat) :=
  if Nat.eqb max_seq_len 0 then Raise IndexError                     (* translation[:, 0] *)
  else
    let '(enc, elen, hid) := context in
    do s <- greedy_loop (seq 0 batch_size) (max_seq_len - 1) 1
      (mkGs (repeat (upd (repeat 0 max_seq_len) 0 (fun _ => BOS)) batch_size) (repeat 1 batch_size) (seq 0 batch_size) words enc elen hid 0);
    Ok (g_tr s, g_len s, g_counter s).

(** batch_padded_sequences(seq, batch_first, sort=True), utils.py:92-108: zip of nothing and max of nothing raise *)
Definition batch_padded (seqs : list (list nat)) : res (list (list nat) * list nat * list nat) :=
  let s := fold_right insert_len [] (combine (seq 0 (length seqs)) seqs) in
  do a <- collate_seq (map snd s);
  Ok (fst a, snd a, map fst s).

(** model.encode(src, src_length) *)
Variable encode : list (list nat) -> list nat -> list E.
(** tok.detokenize *)
Context {T : Type}.
Variable detok : list nat -> T.
(** pred[1: end] *)
Definition cut_pred (pred : list nat) (len : nat) : list nat := skipn 1 (firstn (len - 1) pred).
(** translate with beam_size 1, inference.py:37-88, from the numbers of the words of the sentences: the translations,
    and iters, total_enc_len and total_dec_len *)
Definition translate (max_seq_len : nat) (src_tok : list (list nat)) : res (list T * (nat * nat * nat)) :=
  let batch_size := length src_tok in
  let bos := repeat BOS batch_size in
  do p <- batch_padded src_tok;
  let '(src, src_length, indices) := p in
  let context := encode src src_length in
  do g <- greedy_search max_seq_len batch_size bos (context, src_length, None);
  let '(preds, lengths, counter) := g in
  let output := map (fun pl => detok (cut_pred (fst pl) (snd pl))) (combine preds lengths) in
  do out <- unsort indices output;
  Ok (out, (counter, list_sum src_length, list_sum lengths)).
End Net.
