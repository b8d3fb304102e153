(** Model of the NCF example: examples/ncf/{ncf,dataset,convert}.py.

    Simplifications: users and items are natural numbers; the scores of a network are exact rationals (no NaN); NDCG is
    reported as the position i in the ranking, which stands for log 2 / log (i + 2), and None for 0.; random draws are given
    lists; of the files only missing, broken (a truncated pickle, say) and complete are distinguished; the data of a process
    pool are copies. The CUDA copies (x.cuda(async=True), which newer Python refuses to parse) are left out. *)
From Coq Require Import List Arith Bool Lia QArith.
From Verif Require Import Base.
Import ListNotations.
Open Scope list_scope.
Open Scope nat_scope.

(* ------------------------------------------------------------------------- *)
(** * Evaluation *)

(** [l[i:i+bs] for i in range(0, len(l), bs)], ncf.py:96-97 *)
Fixpoint slices {A} (fuel bs : nat) (l : list A) : list (list A) :=
  match fuel, l with
  | O, _ | _, [] => []
  | S f, _ => firstn bs l :: slices f bs (skipn bs l)
  end.
(** predict, ncf.py:94-109; [net]: one forward call on users and items *)
Definition predict (net : list nat -> list nat -> list Q) (users items : list nat) (batch_size : nat) : list Q :=
  flat_map (fun b => net (map fst b) (map snd b)) (slices (length users) batch_size (combine users items)).

(** {item: pred for item, pred in zip(items, predictions)}: a repeated key keeps its place and gets the new value *)
Fixpoint sset (d : list (nat * Q)) (k : nat) (v : Q) : list (nat * Q) :=
  match d with [] => [(k, v)] | (k', v') :: r => if Nat.eqb k k' then (k', v) :: r else (k', v') :: sset r k v end.
Definition item_score (items : list nat) (preds : list Q) : list (nat * Q) :=
  fold_left (fun d ip => sset d (fst ip) (snd ip)) (combine items preds) [].
(** heapq.nlargest(K, d, key=d.get): sorted(d, key=d.get, reverse=True)[:K], stable *)
Fixpoint insert_score (x : nat * Q) (l : list (nat * Q)) : list (nat * Q) :=
  match l with
  | [] => [x]
  | h :: r => if Qle_bool (snd h) (snd x) then x :: h :: r else h :: insert_score x r
  end.
Definition nlargest (K : nat) (d : list (nat * Q)) : list nat := firstn K (map fst (fold_right insert_score [] d)).
(** ncf.py:112-120: _calculate_hit and _calculate_ndcg *)
Definition calculate_hit (ranked : list nat) (test_item : nat) : nat := if existsb (Nat.eqb test_item) ranked then 1 else 0.
Fixpoint calculate_ndcg (ranked : list nat) (test_item : nat) : option nat :=
  match ranked with
  | [] => None
  | i :: r => if Nat.eqb i test_item then Some 0 else option_map S (calculate_ndcg r test_item)
  end.
(** eval_one, ncf.py:123-137: the hit, the ndcg, and the list of items, which it extends in place *)
Definition eval_one (net : list nat -> list nat -> list Q) (K : nat) (rating : nat * nat) (items : list nat) : nat * option nat * list nat :=
  let items := items ++ [snd rating] in
  let predictions := predict net (repeat (fst rating) (length items)) items 1024 in
  let ranked := nlargest K (item_score items predictions) in
  (calculate_hit ranked (snd rating), calculate_ndcg ranked (snd rating), items).
(** val_epoch, ncf.py:140-182: [pool]: processes > 1; the hits and ndcgs, and the lists of negatives as they are afterwards.
    num_users is given as a natural number (0: the default, -1, or any other number that is not positive) *)
Definition val_epoch (net : list nat -> list nat -> list Q) (K : nat) (pool : bool) (num_users : nat)
    (ratings : list (nat * nat)) (negs : list (list nat)) : list nat * list (option nat) * list (list nat) :=
  let n := if Nat.ltb 0 num_users then num_users else length negs + length ratings in
  let rs := map (fun ri => eval_one net K (fst ri) (snd ri)) (combine (firstn n ratings) (firstn n negs)) in
  (map (fun r => fst (fst r)) rs, map (fun r => snd (fst r)) rs,
   if pool then negs else map snd rs ++ skipn (length rs) negs).
(** ncf.py:321: int(np.floor(len(test_ratings) * portion)) *)
Definition calibration_users (len num den : nat) : nat := len * num / den.

(** the loop over the epochs, ncf.py:365-459, as far as the best model goes: the state is (best hit rate, best epoch, the
    epoch whose model is in the .best file); [threshold] ends the training *)
Definition best := (Q * nat * option nat)%type.
Fixpoint epochs (threshold : option Q) (epoch : nat) (hit_rates : list Q) (b : best) : best * nat :=
  match hit_rates with
  | [] => (b, epoch)
  | h :: rest =>
      let '(best_hit_rate, best_epoch, file) := b in
      let b := if Qle_bool h best_hit_rate then b else (h, epoch, Some epoch) in
      match threshold with
      | Some t => if Qle_bool t h then (b, S epoch) else epochs threshold (S epoch) rest b
      | None => epochs threshold (S epoch) rest b
      end
  end.
Definition start_best : best := (0%Q, 0, None).

(* ------------------------------------------------------------------------- *)
(** * Training data *)

(** a line of the ratings file: user, item, rating > 0 *)
Definition line := (nat * nat * bool)%type.
Inductive file (A : Type) := Missing | Broken | Good (a : A).
Arguments Missing {A}. Arguments Broken {A}. Arguments Good {A} a.
Definition is_file {A} (f : file A) : bool := match f with Missing => false | _ => true end.
(** the attributes of a CFTrainDataset that have been set *)
Record dataset := mkDs { ds_data : option (list line); ds_mat : option (list (nat * nat)); ds_users : option nat; ds_items : option nat }.
(** the pickle of the rows; the matrix: its size and the positions of its ones *)
Definition pkl := file (list line).
Definition npz := file (nat * nat * list (nat * nat)).

Definition max1 (l : list nat) : nat := S (list_max l).
(** _load_train_matrix, dataset.py:44-81. Every [with TimingContext] ends with an __exit__ that returns True (line 36): an
    exception inside is dropped, and the code behind the block continues with what was set before it. The result: the
    object (or the exception that leaves the constructor), and the two files. *)
Definition load_train_matrix (csv : file (list line)) (p : pkl) (z : npz) : res dataset * pkl * npz :=
  if is_file p && is_file z then
    let data := match p with Good d => Some d | _ => None end in
    match z with
    | Good (u, i, m) => (Ok (mkDs data (Some m) (Some u) (Some i)), p, z)
    | _ => (Raise AttributeError, p, z)                     (* self.mat.shape *)
    end
  else
    let rows := match csv with Good d => Some d | _ => None end in
    let sizes := match rows with
                 | Some (r :: rs) => Some (max1 (map (fun l => fst (fst l)) (r :: rs)), max1 (map (fun l => snd (fst l)) (r :: rs)))
                 | _ => None                                (* max() of nothing, or [data] was never set *)
                 end in
    let data := option_map (filter snd) rows in
    let p' := match data with Some d => Good d | None => Broken end in    (* opened, then pickle.dump fails *)
    match sizes with
    | Some (u, i) =>
        let m := map fst (match rows with Some d => d | None => [] end) in
        (Ok (mkDs data (Some m) (Some u) (Some i)), p', Good (u, i, m))
    | None => (Ok (mkDs data None None None), p', z)
    end.
(** the states of the two files when the process is killed while it builds them (starting without them) *)
Definition killed_files (d : list line) (z : nat * nat * list (nat * nat)) : list (pkl * npz) :=
  [(Missing, Missing); (Broken, Missing); (Good d, Missing); (Good d, Broken); (Good d, Good z)].

(** __len__ and __getitem__, dataset.py:83-96: a row and the numbers drawn; the loop is still running when they are used up *)
Definition ds_len (nb_neg : nat) (data : list line) : nat := (nb_neg + 1) * length data.
Definition in_mat (m : list (nat * nat)) (u j : nat) : bool := existsb (fun p => Nat.eqb u (fst p) && Nat.eqb j (snd p)) m.
Fixpoint draw_negative (m : list (nat * nat)) (u : nat) (draws : list nat) : option nat :=
  match draws with
  | [] => None
  | j :: r => if in_mat m u j then draw_negative m u r else Some j
  end.
Definition getitem (nb_neg : nat) (data : list line) (m : list (nat * nat)) (idx : nat) (draws : list nat) : res (option (nat * nat * nat)) :=
  match nth_error data (idx / (nb_neg + 1)) with
  | None => Raise IndexError
  | Some (u, i, _) => if Nat.eqb (idx mod (nb_neg + 1)) 0 then Ok (Some (u, i, 1))
                      else Ok (option_map (fun j => (u, j, 0)) (draw_negative m u draws))
  end.

(* ------------------------------------------------------------------------- *)
(** * The split into training and test data, convert.py:72-86 *)

(** [items]: the items of each user in the order of time (at least MIN_RATINGS of them); [picks]: for each user the
    positions np.random.choice draws. The set of all pairs is a list without repetitions. *)
Definition rem_nat (x : nat) (l : list nat) : list nat := filter (fun y => negb (Nat.eqb y x)) l.
Definition candidates (nb_items : nat) (rest : list nat) : list nat :=
  filter (fun j => negb (existsb (Nat.eqb j) rest)) (seq 0 nb_items).
(** one user: the pairs left for training, the test item, the negatives *)
Definition split_user (nb_items : nat) (items picks : list nat) : list nat * nat * list nat :=
  let test_item := last items 0 in
  let rest := removelast items in
  (rem_nat test_item (nodup Nat.eq_dec items), test_item, map (fun k => nth k (candidates nb_items rest) 0) picks).
Definition convert (nb_items : nat) (users : list (list nat)) (picks : list (list nat)) :
    list (nat * nat) * list (nat * nat) * list (list nat) :=
  let rs := combine (seq 0 (length users)) (map (fun ip => split_user nb_items (fst ip) (snd ip)) (combine users picks)) in
  (flat_map (fun ur => map (fun i => (fst ur, i)) (fst (fst (snd ur)))) rs,
   map (fun ur => (fst ur, snd (fst (snd ur)))) rs, map (fun ur => snd (snd ur)) rs).
