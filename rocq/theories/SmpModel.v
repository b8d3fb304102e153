(** Model of the batch samplers and of the data preparation of two examples:
    examples/object_detection_compression/group_by_aspect_ratio.py (GroupedBatchSampler),
    examples/GNMT/seq2seq/data/{sampler,dataset,tokenizer}.py.

    Simplifications: samples are numbers (their indices); tensors of integers are lists; torch's permutations and
    sortings are parameters (torch.sort need not be stable, so the order among equals is arbitrary); reading the files
    is not modelled, only what is done with their lines; words are strings without white space. *)
From Coq Require Import String List Arith Bool Lia.
From Verif Require Import Base.
Import ListNotations.
Open Scope list_scope.
Open Scope nat_scope.

(* ------------------------------------------------------------------------- *)
(** * GroupedBatchSampler *)

(** a defaultdict(list) from group numbers, in insertion order *)
Definition buffers := list (nat * list nat).
Fixpoint bget (b : buffers) (g : nat) : list nat :=
  match b with [] => [] | (g', l) :: r => if Nat.eqb g g' then l else bget r g end.
(** b[g].append(x): a missing key is added at the end *)
Fixpoint badd (b : buffers) (g x : nat) : buffers :=
  match b with
  | [] => [(g, [x])]
  | (g', l) :: r => if Nat.eqb g g' then (g', l ++ [x]) :: r else (g', l) :: badd r g x
  end.
(** del b[g] *)
Definition bdel (b : buffers) (g : nat) : buffers := filter (fun gl => negb (Nat.eqb g (fst gl))) b.
(** looking a key up in a defaultdict adds it, with an empty list, when it is missing *)
Definition btouch (b : buffers) (g : nat) : buffers :=
  if existsb (fun gl => Nat.eqb g (fst gl)) b then b else b ++ [(g, [])].

(** one turn of the loop, group_by_aspect_ratio.py:46-54; the state: the buffers, the samples seen, the batches given *)
Definition gstate := (buffers * buffers * list (list nat))%type.
Definition gstep (gid : nat -> nat) (bs : nat) (s : gstate) (idx : nat) : res gstate :=
  let '(buf, seen, out) := s in
  let g := gid idx in
  let buf := badd buf g idx in
  let seen := badd seen g idx in
  let '(buf, out) := if Nat.eqb (length (bget buf g)) bs then (bdel buf g, out ++ [bget buf g]) else (buf, out) in
  if Nat.ltb (length (bget buf g)) bs then Ok (btouch buf g, seen, out) else Raise AssertionError.

(** sorted(buffers.items(), key=lambda x: len(x[1]), reverse=True): stable *)
Fixpoint insert_by (g : nat * list nat) (l : buffers) : buffers :=
  match l with
  | [] => [g]
  | h :: r => if Nat.leb (length (snd h)) (length (snd g)) then g :: h :: r else h :: insert_by g r
  end.
Definition sort_desc (b : buffers) : buffers := fold_right insert_by [] b.

(** the remaining batches, lines 64-74: [n] is num_remaining > 0; the batches and the number left *)
Fixpoint refill (bs : nat) (seen : buffers) (l : buffers) (n : nat) : res (list (list nat) * nat) :=
  match l with
  | [] => Ok ([], n)
  | (g, b) :: l =>
      let full := b ++ firstn (bs - length b) (bget seen g) in
      if Nat.eqb (length full) bs then
        match n - 1 with
        | O => Ok ([full], O)
        | n' => do r <- refill bs seen l n'; Ok (full :: fst r, snd r)
        end
      else Raise AssertionError
  end.
(** __iter__, lines 41-75, with __len__ (lines 77-78): len(sampler) // batch_size *)
Definition grouped_batches (gid : nat -> nat) (bs : nat) (sampler : list nat) : res (list (list nat)) :=
  do s <- foldM (gstep gid bs) sampler ([], [], []);
  let '(buf, seen, out) := s in
  let remaining := length sampler / bs - length out in
  if Nat.ltb 0 remaining then
    do r <- refill bs seen (sort_desc buf) remaining;
    if Nat.eqb (snd r) 0 then Ok (out ++ fst r) else Raise AssertionError
  else Ok out.

(* ------------------------------------------------------------------------- *)
(** * BucketingSampler, sampler.py:28-79 *)

(** tensor.view(-1, k) of a vector whose length is a multiple of k; also the slices [i*k:(i+1)*k] of the shards (the
    last one may be shorter) *)
Fixpoint chunk_fuel (fuel k : nat) (l : list nat) : list (list nat) :=
  match fuel, l with
  | O, _ | _, [] => []
  | S f, _ => firstn k l :: chunk_fuel f k (skipn k l)
  end.
Definition chunks (k : nat) (l : list nat) : list (list nat) := chunk_fuel (length l) k l.
(** l[i] for i in idx: indexing by a tensor of positions *)
Definition take (l : list nat) (idx : list nat) : list nat := map (fun i => nth i l 0) idx.
(** every [k]-th element from [r] on: l[r::k] *)
Definition strided {A} (r k : nat) (l : list A) : list A :=
  flat_map (fun ir => if Nat.eqb (fst ir mod k) r then [snd ir] else []) (combine (seq 0 (length l)) l).

Definition batches_in_shard : nat := 80.
Definition num_samples (n bs world : nat) : nat := n / (bs * world) * (bs * world).
(** [perm]: torch.randperm of the data; [sorted sh]: the positions torch.sort gives for the lengths of a shard;
    [order k]: torch.randperm of the k global batches (drawn from the same generator) *)
Definition bucketing_indices (n bs world rank : nat) (bucket : bool) (perm : list nat)
    (sorting : list nat -> list nat) (order : nat -> list nat) : res (list nat) :=
  let gbs := bs * world in
  let indices := firstn (num_samples n bs world) perm in
  do indices <-
    (if bucket then
       let shards := chunks (gbs * batches_in_shard) indices in
       match shards with
       | [] => Raise RuntimeError                                     (* torch.cat of nothing *)
       | _ =>
           let rows := chunks gbs (concat (map (fun sh => take sh (sorting sh)) shards)) in
           Ok (concat (map (fun i => nth i rows []) (order (length rows))))
       end
     else Ok indices);
  Ok (concat (strided rank world (chunks bs indices))).

(* ------------------------------------------------------------------------- *)
(** * Tokens, pairs, batches of sentences *)

(** config.py:1-6 *)
Definition PAD := 0. Definition UNK := 1. Definition BOS := 2. Definition EOS := 3.
Definition specials : list string := ["<pad>"; "<unk>"; "<s>"; "<\s>"]%string.

(** tokenizer.py:13-34: the two dictionaries; [lines] are the stripped lines of the vocabulary file *)
Definition tok2idx (lines : list string) : dict nat :=
  fold_left (fun d it => dset d (snd it) (fst it)) (combine (seq 0 (length (specials ++ lines))) (specials ++ lines)) [].
Fixpoint nset (d : list (nat * string)) (k : nat) (v : string) : list (nat * string) :=
  match d with [] => [(k, v)] | (k', v') :: r => if Nat.eqb k k' then (k, v) :: r else (k', v') :: nset r k v end.
Fixpoint nget (d : list (nat * string)) (k : nat) : option string :=
  match d with [] => None | (k', v) :: r => if Nat.eqb k k' then Some v else nget r k end.
Definition idx2tok (lines : list string) : list (nat * string) :=
  fold_left (fun d kv => nset d (snd kv) (fst kv)) (tok2idx lines) [].
(** segment, lines 36-40; a defaultdict answers UNK for a missing token *)
Definition segment (lines : list string) (words : list string) : list nat :=
  BOS :: map (fun w => match dget (tok2idx lines) w with Some i => i | None => UNK end) words ++ [EOS].
(** detokenize, line 43, before the texts are joined: [self.idx2tok[idx] for idx in inputs] *)
Fixpoint words_of (lines : list string) (ids : list nat) : res (list string) :=
  match ids with
  | [] => Ok []
  | i :: ids => match nget (idx2tok lines) i with
                | None => Raise KeyError
                | Some w => do r <- words_of lines ids; Ok (w :: r)
                end
  end.

(** dataset.py:60-76 [filter_data] on the pairs *)
Definition in_range (mn mx : nat) (s : list nat) : bool := Nat.leb mn (length s) && Nat.leb (length s) mx.
Definition filter_data (mn mx : nat) (src tgt : list (list nat)) : list (list nat) * list (list nat) :=
  let p := filter (fun st => in_range mn mx (fst st) && in_range mn mx (snd st)) (combine src tgt) in (map fst p, map snd p).
(** dataset.py:37-47 with max_size (0 and None: no limit) *)
Definition limited {A} (max_size : option nat) (l : list A) : list A :=
  match max_size with None | Some 0 => l | Some k => firstn k l end.

(** collate_seq, dataset.py:12-25: the rows are the positions (batch_first=False), every column one sequence *)
Definition collate_seq (seqs : list (list nat)) : res (list (list nat) * list nat) :=
  match seqs with
  | [] => Raise ValueError                                           (* max() of nothing *)
  | _ =>
      let n := list_max (map (@length nat) seqs) in
      Ok (map (fun r => map (fun s => nth r s PAD) seqs) (seq 0 n), map (@length nat) seqs)
  end.
(** sorted(enumerate(src), key=lambda item: len(item[1]), reverse=True): stable *)
Fixpoint insert_len (x : nat * list nat) (l : list (nat * list nat)) : list (nat * list nat) :=
  match l with
  | [] => [x]
  | h :: r => if Nat.leb (length (snd h)) (length (snd x)) then x :: h :: r else h :: insert_len x r
  end.
(** collate, dataset.py:27-38 with sort=True: the two padded tensors with their lengths, and the order *)
Definition collate (pairs : list (list nat * list nat)) : res ((list (list nat) * list nat) * (list (list nat) * list nat) * list nat) :=
  let src := map fst pairs in
  let tgt := map snd pairs in
  let s := fold_right insert_len [] (combine (seq 0 (length src)) src) in
  let indices := map fst s in
  do a <- collate_seq (map snd s);
  do b <- collate_seq (map (fun i => nth i tgt []) indices);
  Ok (a, b, indices).
(** inference.py:87 and translate.py:266: [output[indices.index(i)] for i in range(len(output))] *)
Fixpoint index_of (l : list nat) (i : nat) : option nat :=
  match l with [] => None | x :: r => if Nat.eqb x i then Some 0 else option_map S (index_of r i) end.
Fixpoint unsort_from {A} (indices : list nat) (output : list A) (is : list nat) : res (list A) :=
  match is with
  | [] => Ok []
  | i :: is => match index_of indices i with
               | None => Raise ValueError
               | Some k => match nth_error output k with
                           | None => Raise IndexError
                           | Some x => do r <- unsort_from indices output is; Ok (x :: r)
                           end
               end
  end.
Definition unsort {A} (indices : list nat) (output : list A) : res (list A) := unsort_from indices output (seq 0 (length output)).
