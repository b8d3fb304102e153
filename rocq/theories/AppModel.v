(** Model of the training application: learning_rate.py, apputils/performance_tracker.py,
    apputils/data_loaders.py (index arithmetic), apputils/image_classifier.py (training loop,
    checkpoint flags, early exit), knowledge_distillation.py.

    Simplifications: rationals instead of floats (np.floor of a float product is the exact floor
    here); random permutations are parameters; tensors of logits are not modelled, losses are
    rationals. *)
From Coq Require Import String List ZArith QArith Qround Qpower Bool Arith Lia.
From Verif Require Import Base SchedModel.
Import ListNotations.
Open Scope Q_scope.

(* ------------------------------------------------------------------------- *)
(** * learning_rate.py *)

(** bisect.bisect_right (CPython's algorithm), used at learning_rate.py:67: the loop keeps
    lo <= hi; [fuel] bounds the number of iterations (hi - lo decreases). *)
Fixpoint bisect_loop (fuel : nat) (a : list Z) (x : Z) (lo hi : nat) : nat :=
  match fuel with
  | O => lo
  | S fuel =>
      if Nat.ltb lo hi then
        let mid := Nat.div2 (lo + hi) in
        if Z.ltb x (nth mid a 0%Z) then bisect_loop fuel a x lo mid else bisect_loop fuel a x (S mid) hi
      else lo
  end.
Definition bisect_right (a : list Z) (x : Z) : nat := bisect_loop (S (length a)) a x 0 (length a).

(** list(milestones) == sorted(milestones), learning_rate.py:53 *)
Fixpoint zsorted (l : list Z) : bool :=
  match l with a :: ((b :: _) as r) => Z.leb a b && zsorted r | _ => true end.

(** learning_rate.py:60-62: multiplicative_gammas, each entry gamma times the previous one *)
Fixpoint cum_gammas (acc : Q) (gammas : list Q) : list Q :=
  match gammas with [] => [acc] | g :: r => acc :: cum_gammas (g * acc) r end.

(** MultiStepMultiGammaLR, learning_rate.py:43-68: constructor checks, then the rates of the
    parameter groups at [epoch] *)
Definition multi_gamma_lr (milestones : list Z) (gammas : list Q) (base_lrs : list Q) (epoch : Z) : res (list Q) :=
  if negb (zsorted milestones) then Raise ValueError
  else if negb (Nat.eqb (length milestones) (length gammas)) then Raise ValueError
  else Ok (map (fun base => base * nth (bisect_right milestones epoch) (cum_gammas 1 gammas) 0) base_lrs).

(** PolynomialLR.get_lr, learning_rate.py:38-41 *)
Definition poly_lr (t_max power : Z) (base_lrs : list Q) (epoch : Z) : res (list Q) :=
  if Z.eqb t_max 0 then Raise ZeroDivisionError
  else let b := 1 - Zq epoch / Zq t_max in
       if Qeq_bool b 0 && Z.ltb power 0 then Raise ZeroDivisionError
       else Ok (map (fun base => base * Qpower b power) base_lrs).

(* ------------------------------------------------------------------------- *)
(** * apputils/performance_tracker.py *)

(** an entry of perf_scores_history (params_nnz_cnt is stored negated), performance_tracker.py:57-62 *)
Record score := mkScore { sc_nnz : Z; sc_sparsity : Q; sc_top1 : Q; sc_top5 : Q; sc_epoch : Z }.

(** the sort key (-nnz, top1, top5, epoch) compared lexicographically: [a] < [b] *)
Definition key_lt (a b : score) : bool :=
  if Z.ltb (- sc_nnz a) (- sc_nnz b) then true else if Z.ltb (- sc_nnz b) (- sc_nnz a) then false else
  if Qltb (sc_top1 a) (sc_top1 b) then true else if Qltb (sc_top1 b) (sc_top1 a) then false else
  if Qltb (sc_top5 a) (sc_top5 b) then true else if Qltb (sc_top5 b) (sc_top5 a) then false else
  Z.ltb (sc_epoch a) (sc_epoch b).

(** list.sort(key, reverse=True): stable, largest key first, performance_tracker.py:64-66.  An
    insertion sort: any stable sort gives the same list. *)
Fixpoint ins_desc (s : score) (l : list score) : list score :=
  match l with
  | [] => [s]
  | x :: r => if key_lt s x then x :: ins_desc s r else s :: l
  end.
Definition sort_desc (l : list score) : list score := fold_right ins_desc [] l.

(** SparsityAccuracyTracker.step, performance_tracker.py:54-68; None for a missing kwarg *)
Definition tracker_step (nnz : Z) (sparsity : Q) (epoch : Z) (top1 top5 : option Q) (h : list score) : res (list score) :=
  match top1, top5 with
  | Some t1, Some t5 => Ok (sort_desc (h ++ [mkScore nnz sparsity t1 t5 epoch]))
  | _, _ => Raise AssertionError
  end.

(** Python's l[:n] for an integer n *)
Definition py_take {A} (n : Z) (l : list A) : list A :=
  if Z.ltb n 0 then firstn (length l - Z.to_nat (- n)) l else firstn (Z.to_nat n) l.

(** best_scores, performance_tracker.py:39-44 *)
Definition best_scores (max_len how_many : Z) (h : list score) : list score :=
  let k := if Z.ltb how_many 1 then max_len else how_many in py_take (Z.min k max_len) h.

(* ------------------------------------------------------------------------- *)
(** * apputils/data_loaders.py: which samples are used *)

(** Python's l[n:] *)
Definition py_drop {A} (n : Z) (l : list A) : list A :=
  if Z.ltb n 0 then skipn (length l - Z.to_nat (- n)) l else skipn (Z.to_nat n) l.
(** __split_list, data_loaders.py:231-233: (validation, training) *)
Definition split_list {A} (l : list A) (ratio : Q) : list A * list A :=
  let i := Qfloor (ratio * Zq (Z.of_nat (length l))) in (py_take i l, py_drop i l).

(** _get_subset_length, data_loaders.py:275-278 *)
Definition subset_length (n : nat) (eff : Q) : res nat :=
  if Qle_bool eff 0 || Qltb 1 eff then Raise ValueError
  else Ok (Z.to_nat (Qfloor (Zq (Z.of_nat n) * eff))).

(** The samples one enumeration of a sampler yields, data_loaders.py:236-291.  [perm] is the random
    permutation of the positions drawn by np.random.permutation / torch.randperm; [order] the one
    drawn by torch's SubsetRandomSampler.  With fixed_subset the positions themselves are used as
    data-set indices; otherwise the elements of [source] at those positions. *)
Definition sampler (source : list nat) (eff : Q) (fixed sequential : bool) (perm order : list nat) : res (list nat) :=
  do k <- subset_length (length source) eff;
  let sub := firstn k perm in
  if fixed then Ok (if sequential then sub else map (fun i => nth i sub 0%nat) order)
  else Ok (map (fun i => nth i source 0%nat) sub).

(** the data set a loader reads from *)
Inductive which := TrainSet | TestSet.

(** get_data_loaders, data_loaders.py:294-335 (not test_only): the samples drawn from the training
    set for training, and the data set and samples used for validation.  [shuffled] is the shuffled
    list of training indices; the other lists are the permutations drawn by the samplers.
    "valid_loader or test_loader": a loader is falsy when it is None or has no batch. *)
Definition data_loaders (n_test : nat) (shuffled : list nat) (vsplit etrain evalid etest : Q) (fixed sequential : bool)
    (pt ot pv ov pe oe : list nat) : res (list nat * (which * list nat) * list nat) :=
  do test <- sampler (seq 0 n_test) etest fixed sequential pe oe;
  let '(vi, ti) := split_list shuffled vsplit in
  do tr <- sampler ti etrain fixed sequential pt ot;
  match vi with
  | [] => Ok (tr, (TestSet, test), test)
  | _ => do va <- sampler vi evalid fixed sequential pv ov;
         Ok (tr, match va with [] => (TestSet, test) | _ => (TrainSet, va) end, test)
  end.

(** torch DataLoader batches (drop_last=False): consecutive groups of [b] *)
Fixpoint batches_fuel {A} (fuel : nat) (b : nat) (l : list A) : list (list A) :=
  match fuel, l with
  | S fuel, _ :: _ => firstn b l :: batches_fuel fuel b (skipn b l)
  | _, _ => []
  end.
Definition batches {A} (b : nat) (l : list A) : list (list A) := batches_fuel (length l) b l.
(** steps_per_epoch = math.ceil(total_samples / batch_size), image_classifier.py:543-545 *)
Definition steps_per_epoch (total b : nat) : Z := Qceiling (Zq (Z.of_nat total) / Zq (Z.of_nat b)).

(* ------------------------------------------------------------------------- *)
(** * apputils/image_classifier.py: the training loop *)
Section Loop.
Context {PS : Type}.
Variable tbl : nat -> policy PS.
(** what the model and the optimizer contribute: the loss of a minibatch and the weight update,
    as functions of the epoch, the minibatch and (through the weights) the state *)
Variable lossf : Z -> nat -> dict tensor -> Q.
Variable updf : Z -> nat -> Q -> dict tensor -> string -> tensor -> tensor.

(** one training step, image_classifier.py:553-604: on_minibatch_begin, forward (loss),
    before_backward_pass (the overall loss is what is differentiated),
    before_parameter_optimization, optimizer.step, on_minibatch_end *)
Definition train_step (e k : Z) (i : nat) (w : world PS) : res (world PS) :=
  do w1 <- on_minibatch_begin tbl e (Z.of_nat i) k w;
  do r <- before_backward_pass tbl e (lossf e i (w_params w1)) w1;
  do w3 <- before_parameter_optimization tbl e (Z.of_nat i) k (fst r);
  let w4 := with_params w3 (map (fun np => (fst np, updf e i (fst (snd r)) (w_params w3) (fst np) (snd np))) (w_params w3)) in
  on_minibatch_end tbl e (Z.of_nat i) k w4.

(** train, image_classifier.py:487-610: all batches of the loader *)
Definition train_epoch (samples : list nat) (b : nat) (e : Z) (w : world PS) : res (world PS) :=
  let k := steps_per_epoch (length samples) b in
  foldM (fun w i => train_step e k i w) (seq 0 (length (batches b samples))) w.

(** what validate() measures on the model: (top1, top5) *)
Variable accf : Z -> dict tensor -> Q * Q.
(** distiller.model_params_stats: non-zero count and sparsity *)
Variable statsf : dict tensor -> Z * Q.

(** train_validate_with_scheduling, image_classifier.py:124-137: the accuracy is measured before
    on_epoch_end *)
Definition train_validate (samples : list nat) (b : nat) (e : Z) (w : world PS) : res (world PS * (Q * Q)) :=
  do w1 <- on_epoch_begin tbl e w;
  do w2 <- train_epoch samples b e w1;
  let acc := accf e (w_params w2) in
  do w3 <- on_epoch_end tbl e w2;
  Ok (w3, acc).

(** the checkpoint files: the latest one (epoch, state) and the best one; and the tracker *)
Record files := mkFiles { fl_last : option (Z * world PS); fl_best : option (Z * world PS); fl_history : list score }.

(** _finalize_epoch, image_classifier.py:159-172: IndexError when best_scores() is empty.
    apputils.save_checkpoint writes the checkpoint and, when is_best, copies it to best.pth.tar *)
Definition finalize_epoch (max_len : Z) (e : Z) (w : world PS) (acc : Q * Q) (f : files) : res files :=
  let '(nnz, sp) := statsf (w_params w) in
  do h <- tracker_step nnz sp e (Some (fst acc)) (Some (snd acc)) (fl_history f);
  match best_scores max_len 1 h with
  | [] => Raise IndexError
  | best :: _ => Ok (mkFiles (Some (e, w)) (if Z.eqb e (sc_epoch best) then Some (e, w) else fl_best f) h)
  end.

(** range(start, end) *)
Definition epochs_from (start stop : Z) : list Z := map (fun i => (start + Z.of_nat i)%Z) (seq 0 (Z.to_nat (stop - start))).

(** run_training_loop, image_classifier.py:174-197; [draw e] are the samples the train loader
    yields in epoch [e] *)
Definition run_training_loop (draw : Z -> list nat) (b : nat) (max_len start stop : Z) (w : world PS) (f : files) : res (world PS * files) :=
  if Z.leb stop start then Raise ValueError
  else foldM (fun st e => do r <- train_validate (draw e) b e (fst st);
                          do f' <- finalize_epoch max_len e (fst r) (snd r) (snd st); Ok (fst r, f'))
             (epochs_from start stop) (w, mkFiles (fl_last f) (fl_best f) []).
End Loop.

(* ------------------------------------------------------------------------- *)
(** * Early exit, image_classifier.py:791-873 *)

(** earlyexit_loss: the per-exit losses in order (None: an exit that was not traversed; the final
    exit is the last one) *)
Definition earlyexit_loss (weights : list Q) (exits : list (option Q)) (final : Q) : res Q :=
  let s := qsum weights in
  if Qle_bool 1 s then Raise AssertionError
  else do acc <- foldM (fun acc ie => match snd ie with
                                      | None => Ok acc
                                      | Some l => match nth_error weights (fst ie) with Some w => Ok (acc + w * l) | None => Raise IndexError end
                                      end) (combine (seq 0 (length exits)) exits) 0;
       Ok (acc + (1 - s) * final).

(** one sample: its loss at each early exit (all but the final one); the first exit whose loss is
    below the threshold is taken, else the final exit; IndexError when there are fewer thresholds
    than exits looked at, image_classifier.py:826-845 *)
Fixpoint take_exit (i : nat) (losses thresholds : list Q) : res nat :=
  match losses, thresholds with
  | [], _ => Ok i
  | l :: ls, t :: ts => if Qltb l t then Ok i else take_exit (S i) ls ts
  | _ :: _, [] => Raise IndexError
  end.

(** a sample: its losses at the early exits and, per exit, whether the prediction is correct *)
Record sample := mkSample { sm_loss : list Q; sm_ok : list bool }.
(** ClassErrorMeter per exit: (samples added, of which correct); exit_taken is the first component
    (both are incremented together) *)
Definition meters := list (nat * nat).
Fixpoint meter_add (i : nat) (ok : bool) (m : meters) : meters :=
  match i, m with
  | O, (n, k) :: r => (S n, if ok then S k else k) :: r
  | S i, x :: r => x :: meter_add i ok r
  | _, [] => []
  end.
(** _validate, image_classifier.py:695-760: fresh meters, then earlyexit_validate_loss (816-845) on
    each batch *)
Definition validate_batch (thresholds : list Q) (b : list sample) (m : meters) : res meters :=
  foldM (fun m s => do i <- take_exit 0 (sm_loss s) thresholds; Ok (meter_add i (nth i (sm_ok s) false) m)) b m.
Definition validate_all (num_exits : nat) (thresholds : list Q) (bs : list (list sample)) : res meters :=
  foldM (fun m b => validate_batch thresholds b m) bs (repeat (0%nat, 0%nat) num_exits).
(** classerr.value(1) of one exit: the percentage of correct samples; only read when the exit was taken *)
Definition meter_value (x : nat * nat) : Q := Zq (Z.of_nat (snd x)) * 100 / Zq (Z.of_nat (fst x)).
(** earlyexit_validate_stats, image_classifier.py:848-873: total_top1 *)
Definition validate_stats (m : meters) : res Q :=
  let taken := fold_right (fun x a => Z.of_nat (fst x) + a)%Z 0%Z m in
  if Z.eqb taken 0 && negb (Nat.eqb (length m) 0) then Raise ZeroDivisionError
  else Ok (qsum (map (fun x => (if Nat.eqb (fst x) 0 then 0 else meter_value x) * (Zq (Z.of_nat (fst x)) / Zq taken)) m)).

(* ------------------------------------------------------------------------- *)
(** * knowledge_distillation.py *)

(** KnowledgeDistillationPolicy: active flag and the cached (student, teacher) logits; a cached pair
    is represented by the identity of the forward that produced it (a natural number) *)
Record kd := mkKd { kd_active : bool; kd_cached : option nat }.
Definition kd_init (teacher_wt : Q) : res kd :=
  if Qeq_bool teacher_wt 0 then Ok (mkKd false None) else Raise NotImplementedError.

Inductive kd_op := KdEpochBegin | KdEpochEnd | KdForward (id : nat) | KdBackward (loss : Q).
(** what before_backward_pass returns *)
Inductive kd_out := KdNone | KdLoss (overall component : Q) | KdSilent.

(** forward (knowledge_distillation.py:101-122), the epoch callbacks (126-130) and
    before_backward_pass (132-169); [kl id] is F.kl_div of the softened distributions of forward
    [id] at temperature T *)
Definition kd_step (T wd ws : Q) (kl : nat -> Q) (s : kd) (o : kd_op) : res (kd * kd_out) :=
  match o with
  | KdEpochBegin => Ok (mkKd true (kd_cached s), KdSilent)
  | KdEpochEnd => Ok (mkKd false (kd_cached s), KdSilent)
  | KdForward id => Ok (if kd_active s then mkKd true (Some id) else s, KdSilent)
  | KdBackward loss =>
      if kd_active s then
        match kd_cached s with
        | None => Raise RuntimeError
        | Some id => Ok (s, KdLoss (ws * loss + wd * (kl id * (T * T))) (kl id))
        end
      else Ok (s, KdNone)
  end.
Definition kd_run (T wd ws : Q) (kl : nat -> Q) (ops : list kd_op) (s : kd) : res (kd * list kd_out) :=
  foldM (fun st o => do r <- kd_step T wd ws kl (fst st) o; Ok (fst r, snd st ++ [snd r])) ops (s, []).
