(** Model of the language-model example: examples/word_language_model/data.py and main.py (batches, evaluation, the training loop's
    bookkeeping and the files it leaves).

    The network is an arbitrary function of the hidden state and one row of tokens (what torch.nn.LSTM computes step by step; dropout is
    off in evaluation); losses are exact rationals. *)
From Coq Require Import String List ZArith QArith Bool Arith.
From Verif Require Import Base.
Import ListNotations.
Local Open Scope string_scope.
Open Scope list_scope.
Open Scope nat_scope.

(** ---------------------------------------------------------------- data.py *)
(** data.py:4-7: Dictionary *)
Record dictionary := mkDict { word2idx : dict nat; idx2word : list string }.
Definition empty_dictionary : dictionary := mkDict [] [].
(** data.py:9-13: add_word (its result is not used) *)
Definition add_word (d : dictionary) (w : string) : dictionary :=
  if dmem (word2idx d) w then d
  else let l := idx2word d ++ [w] in mkDict (dset (word2idx d) w (length l - 1)) l.
(** data.py:34, 44: the words of a line (line.split(): the words, given) *)
Definition words (line : list string) : list string := line ++ ["<eos>"].
(** data.py:26-49: tokenize; a file is its lines; ids is as long as there are words *)
Definition tokenize (d : dictionary) (file : list (list string)) : res (dictionary * list nat) :=
  let d' := fold_left add_word (flat_map words file) d in
  do ids <- foldM (fun acc w => match dget (word2idx d') w with Some i => Ok (acc ++ [i]) | None => Raise KeyError end) (flat_map words file) [];
  Ok (d', ids).
(** data.py:19-24: Corpus *)
Definition corpus (train valid test : list (list string)) : res (dictionary * (list nat * list nat * list nat)) :=
  do (d1, t) <- tokenize empty_dictionary train;
  do (d2, v) <- tokenize d1 valid;
  do (d3, s) <- tokenize d2 test;
  Ok (d3, (t, v, s)).

(** ---------------------------------------------------------------- batches *)
(** main.py:129-136: batchify; the result is the list of its rows (element [r][c] of view(bsz, -1).t() is element c * nbatch + r) *)
Definition batchify (data : list nat) (bsz : nat) : res (list (list nat)) :=
  if bsz =? 0 then Raise ZeroDivisionError
  else
    let nbatch := length data / bsz in
    let data := firstn (nbatch * bsz) data in
    Ok (map (fun r => map (fun c => nth (c * nbatch + r) data 0) (seq 0 bsz)) (seq 0 nbatch)).
(** main.py:183-187: get_batch (called with i < len(source), where len(source) - 1 - i is not negative) *)
Definition get_batch (bptt : nat) (source : list (list nat)) (i : nat) : list (list nat) * list nat :=
  let seq_len := Nat.min bptt (length source - 1 - i) in
  (firstn seq_len (skipn i source), concat (firstn seq_len (skipn (i + 1) source))).
(** range(0, n, bptt) *)
Definition starts (n bptt : nat) : list nat := map (fun k => k * bptt) (seq 0 ((n + bptt - 1) / bptt)).

Section Net.
Variables St Out : Type.
Variable net : St -> list nat -> list Out * St.
Variable loss : Out -> nat -> Q.
Variable init : St.

(** the network on a chunk: model.py forward, the rows one after the other; torch's RNNs raise on an empty sequence *)
Fixpoint run (h : St) (rows : list (list nat)) : list (list Out) * St :=
  match rows with
  | [] => ([], h)
  | r :: rows' => let '(o, h1) := net h r in let '(os, h2) := run h1 rows' in (o :: os, h2)
  end.
Definition model_call (data : list (list nat)) (h : St) : res (list (list Out) * St) :=
  match data with [] => Raise RuntimeError | _ => Ok (run h data) end.
(** nn.CrossEntropyLoss(): the mean over the predictions *)
Definition criterion (outs : list Out) (targets : list nat) : Q :=
  (qsum (map2 loss outs targets) / inject_Z (Z.of_nat (length targets)))%Q.

(** main.py:198-203 *)
Fixpoint eval_loop (batches : list (list (list nat) * list nat)) (h : St) (total : Q) : res Q :=
  match batches with
  | [] => Ok total
  | (data, targets) :: rest =>
      do (output, h') <- model_call data h;
      eval_loop rest h' (total + inject_Z (Z.of_nat (length data)) * criterion (concat output) targets)%Q
  end.
(** main.py:190-204: evaluate *)
Definition evaluate (bptt : nat) (source : list (list nat)) : res Q :=
  if bptt =? 0 then Raise ValueError
  else
    do total <- eval_loop (map (get_batch bptt source) (starts (length source) bptt)) init 0%Q;
    match source with [] => Raise ZeroDivisionError | _ => Ok (total / inject_Z (Z.of_nat (length source)))%Q end.
End Net.
Arguments run {St Out}. Arguments model_call {St Out}. Arguments criterion {Out}. Arguments eval_loop {St Out}. Arguments evaluate {St Out}.

(** ---------------------------------------------------------------- training *)
(** main.py:211-222: the mini-batches of an epoch: the number announced to the scheduler, and for each the number it is called with, and
    what the network gets; the error of the call of the network (228: model(data, hidden)) if a chunk is empty *)
Definition minibatches (bptt : nat) (source : list (list nat)) : nat * list (nat * (list (list nat) * list nat)) :=
  let steps := (length source + bptt - 1) / bptt in
  (steps, combine (seq 0 (length (starts (length source) bptt))) (map (get_batch bptt source) (starts (length source) bptt))).
Definition train_ok (bptt : nat) (source : list (list nat)) : res unit :=
  foldM (fun _ b => match fst (snd b) with [] => Raise RuntimeError | _ => Ok tt end) (snd (minibatches bptt source)) tt.

(** main.py:244-259: what is reported of the losses of the batches: (batch, cur_loss) *)
Fixpoint report (interval : nat) (batch : nat) (total : Q) (losses : list Q) : list (nat * Q) :=
  match losses with
  | [] => []
  | l :: rest =>
      let total := (total + l)%Q in
      if ((batch mod interval =? 0) && (0 <? batch))%bool
      then (batch, (total / inject_Z (Z.of_nat interval))%Q) :: report interval (S batch) 0%Q rest
      else report interval (S batch) total rest
  end.
(** 249: batch % 0 *)
Definition train_report (interval : nat) (losses : list Q) : res (list (nat * Q)) :=
  match losses with
  | [] => Ok []
  | _ => if interval =? 0 then Raise ZeroDivisionError else Ok (report interval 0 0%Q losses)
  end.

(** ---------------------------------------------------------------- the files *)
(** main.py:318-359: what an epoch does to the two files: open(.., 'wb') empties the file, torch.save completes it.  None: not there *)
Section Files.
Variable M : Type.
Inductive content := Broken | Saved (m : M).
Record fsys := mkFs { last : option content; best : option content }.
Inductive action := OpenLast | SaveLast (m : M) | OpenBest | SaveBest (m : M).
Definition act (s : fsys) (a : action) : fsys :=
  match a with
  | OpenLast => mkFs (Some Broken) (best s)
  | SaveLast m => mkFs (Some (Saved m)) (best s)
  | OpenBest => mkFs (last s) (Some Broken)
  | SaveBest m => mkFs (last s) (Some (Saved m))
  end.
(** val_loss < best_val_loss; None: infinity; a loss of None is not a number *)
Definition better (v : option Q) (b : option Q) : bool :=
  match v, b with
  | None, _ => false
  | Some _, None => true
  | Some x, Some y => negb (Qle_bool y x)
  end.
(** the actions of the epochs; an epoch is the model after it and its validation loss *)
Fixpoint actions (epochs : list (M * option Q)) (b : option Q) : list action :=
  match epochs with
  | [] => []
  | (m, v) :: rest =>
      if better v b then [OpenLast; SaveLast m; OpenBest; SaveBest m] ++ actions rest v
      else [OpenLast; SaveLast m] ++ actions rest b
  end.
(** the training, or only the part of it before Ctrl-C *)
Definition training (s : fsys) (acts : list action) : fsys := fold_left act acts s.
(** main.py:361-363: the model tested at the end; a file that is not there: FileNotFoundError; an incomplete one: torch.load fails *)
Definition tested (s : fsys) : res M :=
  match last s with Some (Saved m) => Ok m | Some Broken => Raise RuntimeError | None => Raise OSError end.
End Files.
Arguments Broken {M}. Arguments Saved {M}. Arguments mkFs {M}. Arguments last {M}. Arguments best {M}.
Arguments OpenLast {M}. Arguments SaveLast {M}. Arguments OpenBest {M}. Arguments SaveBest {M}.
Arguments act {M}. Arguments actions {M}. Arguments training {M}. Arguments tested {M}.
