(** Model of examples/object_detection_compression/utils.py: SmoothedValue, all_gather, reduce_dict, MetricLogger.log_every,
    collate_fn, warmup_lr_scheduler.

    Simplifications: floats are exact rationals; the processes of a distributed run are a list, one element for each rank,
    and the collective operations (all_reduce, all_gather) act on the whole list at once; what pickle writes and reads is
    a parameter; the keys of a dictionary are numbers that stand for the names in their alphabetical order; times, memory
    and the text that is printed are not modelled, only the turns at which something is printed. *)
From Coq Require Import String List Arith Bool Lia ZArith QArith.
From Verif Require Import Base.
Import ListNotations.
Open Scope list_scope.
Open Scope nat_scope.

Definition qsum (l : list Q) : Q := fold_left Qplus l 0%Q.

(* ------------------------------------------------------------------------- *)
(** * SmoothedValue, utils.py:16-71 *)
Record smoothed := mkSm { s_window : nat; s_deque : list Q; s_total : Q; s_count : nat }.
Definition smoothed0 (window_size : nat) : smoothed := mkSm window_size [] 0%Q 0.
(** deque(maxlen=window).append *)
Definition dq_append (window : nat) (d : list Q) (x : Q) : list Q := let d := d ++ [x] in skipn (length d - window) d.
(** update(value, n), lines 30-33 *)
Definition sm_update (s : smoothed) (vn : Q * nat) : smoothed :=
  let (value, n) := vn in
  mkSm (s_window s) (dq_append (s_window s) (s_deque s) value) (s_total s + value * inject_Z (Z.of_nat n))%Q (s_count s + n).
(** global_avg, avg, max, value, lines 57-71; the mean of nothing is nan (None) *)
Definition sm_global_avg (s : smoothed) : res Q := if Nat.eqb (s_count s) 0 then Raise ZeroDivisionError else Ok (s_total s / inject_Z (Z.of_nat (s_count s)))%Q.
Definition sm_avg (s : smoothed) : option Q := match s_deque s with [] => None | d => Some (qsum d / inject_Z (Z.of_nat (length d)))%Q end.
Definition sm_value (s : smoothed) : res Q := match rev (s_deque s) with [] => Raise IndexError | x :: _ => Ok x end.
Definition sm_max (s : smoothed) : res Q := match s_deque s with [] => Raise ValueError | x :: d => Ok (fold_left (fun a b => if Qle_bool b a then a else b) d x) end.
(** median, lines 47-50: torch gives the lower of the two middle values, and fails on nothing *)
Fixpoint insert_q (x : Q) (l : list Q) : list Q := match l with [] => [x] | h :: r => if Qle_bool x h then x :: h :: r else h :: insert_q x r end.
Definition sm_median (s : smoothed) : res Q :=
  match s_deque s with [] => Raise RuntimeError | d => Ok (nth ((length d - 1) / 2) (fold_right insert_q [] d) 0%Q) end.
(** synchronize_between_processes on every rank, lines 35-46: the deques stay *)
Definition sm_synchronize (ranks : list smoothed) : list smoothed :=
  let count := list_sum (map s_count ranks) in
  let total := qsum (map s_total ranks) in
  map (fun s => mkSm (s_window s) (s_deque s) total count) ranks.

(* ------------------------------------------------------------------------- *)
(** * all_gather, utils.py:81-121: what every rank gets *)
Section Gather.
Context {T : Type}.
Variables (dumps : T -> list nat) (loads : list nat -> res T).
(** torch.empty: the bytes of the padding, for a rank and a size *)
Variable empty : nat -> nat -> list nat.
Fixpoint loads_all (sizes : list nat) (tensors : list (list nat)) : res (list T) :=
  match sizes, tensors with
  | size :: sizes, t :: tensors => do x <- loads (firstn size t); do r <- loads_all sizes tensors; Ok (x :: r)
  | _, _ => Ok []
  end.
Definition all_gather (datas : list T) : res (list (list T)) :=
  match datas with
  | [data] => Ok [[data]]
  | _ =>
      let buffers := map dumps datas in
      let size_list := map (@length nat) buffers in
      let max_size := list_max size_list in
      let padded := map (fun rb => let '(r, b) := rb in if Nat.eqb (length b) max_size then b else b ++ firstn (max_size - length b) (empty r (max_size - length b)))
                        (combine (seq 0 (length buffers)) buffers) in
      if forallb (fun t => Nat.eqb (length t) max_size) padded then       (* dist.all_gather needs tensors of one size *)
        do r <- loads_all size_list padded;
        Ok (map (fun _ => r) datas)
      else Raise RuntimeError
  end.
End Gather.

(* ------------------------------------------------------------------------- *)
(** * reduce_dict, utils.py:124-149: the dictionaries of all ranks before and after *)
Definition qdict := list (nat * Q).
Fixpoint insert_key (kv : nat * Q) (l : qdict) : qdict :=
  match l with [] => [kv] | h :: r => if Nat.leb (fst kv) (fst h) then kv :: h :: r else h :: insert_key kv r end.
Definition sort_keys (d : qdict) : qdict := fold_right insert_key [] d.
(** all_reduce of vectors of one length; torch.stack of nothing raises; other lengths: an error of the backend *)
Definition all_reduce (vs : list (list Q)) : res (list Q) :=
  let n := length (hd [] vs) in
  if Nat.eqb n 0 then Raise RuntimeError
  else if forallb (fun v => Nat.eqb (length v) n) vs then Ok (map (fun j => qsum (map (fun v => nth j v 0%Q) vs)) (seq 0 n))
  else Raise RuntimeError.
Definition reduce_dict (average : bool) (ranks : list qdict) : res (list qdict) :=
  let world_size := length ranks in
  if Nat.ltb world_size 2 then Ok ranks
  else
    let sorted := map sort_keys ranks in
    do values <- all_reduce (map (map snd) sorted);
    let values := if average then map (fun v => (v / inject_Z (Z.of_nat world_size))%Q) values else values in
    Ok (map (fun d => combine (map fst d) values) sorted).

(* ------------------------------------------------------------------------- *)
(** * log_every, utils.py:183-241: the objects that are given out, and the turns at which a line is printed *)
Definition log_every {A} (iterable : list A) (print_freq : nat) : res (list A * list nat) :=
  let n := length iterable in
  do out <- foldM (fun s (io : nat * A) => let '(given, printed) := s in let '(i, obj) := io in
                     let given := given ++ [obj] in
                     if Nat.eqb print_freq 0 then Raise ZeroDivisionError
                     else if Nat.eqb (i mod print_freq) 0 || Nat.eqb i (n - 1) then Ok (given, printed ++ [i]) else Ok (given, printed))
                  (combine (seq 0 n) iterable) ([], []);
  if Nat.eqb n 0 then Raise ZeroDivisionError else Ok out.      (* total_time / len(iterable), line 240 *)

(** collate_fn, lines 244-245: tuple(zip( *batch)) of samples of [k] parts: cut to the shortest *)
Definition collate_fn {A} (batch : list (list A)) (d : A) : list (list A) :=
  match batch with
  | [] => []
  | s :: r => map (fun j => map (fun x => nth j x d) batch) (seq 0 (fold_left Nat.min (map (@length A) r) (length s)))
  end.

(** the factor of warmup_lr_scheduler, lines 248-256 *)
Definition warmup (warmup_iters : nat) (warmup_factor : Q) (x : nat) : Q :=
  if Nat.leb warmup_iters x then 1%Q
  else let alpha := (inject_Z (Z.of_nat x) / inject_Z (Z.of_nat warmup_iters))%Q in (warmup_factor * (1 - alpha) + alpha)%Q.
