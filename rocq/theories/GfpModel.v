(** Model of greedy filter pruning (distiller/pruning/greedy_filter_pruning.py), on top of the model of the ranked
    structure pruner (StructModel).  Fine-tuning the pruned copy, removing its filters physically and testing it are one
    arbitrary function ([finish]); the compute budget is an arbitrary function of the weights ([macs]).  The summary file,
    the checkpoint files and the log are lists.  The multi-processing variant (find_most_robust_layer_mp) is not used by
    the code and is not modelled. *)
From Coq Require Import String List ZArith QArith Qround Bool Arith.
From Verif Require Import Base Lists StructModel.
Import ListNotations.
Open Scope Q_scope.

Definition weights := dict nd.
Definition score3 := (Q * Q * Q)%type.              (* top1, top5, loss *)

(** Python's [(a1, a2, -a3) > (b1, b2, -b3)]: the first unequal components decide *)
Definition score_gt (a b : score3) : bool :=
  let '(a1, a2, a3) := a in
  let '(b1, b2, b3) := b in
  if negb (Qeq_bool a1 b1) then Qltb b1 a1
  else if negb (Qeq_bool a2 b2) then Qltb b2 a2
  else if negb (Qeq_bool (- a3) (- b3)) then Qltb (- b3) (- a3)
  else false.

(** lines 77-90 [prune_tensor]: the pruned tensor, the mask (None: not set) and the filter-sparsity afterwards *)
Definition prune_tensor (t : nd) (n : string) (fraction : Q) : res (nd * option nd * Q) :=
  do r <- prune_group (mkLp TFilters [n] false 1 [] l1_norm) None fraction t true None;
  let t' := match snd r with
            | Some m => mkND (nd_shape t) (tmul (nd_data t) (nd_data m))
            | None => t
            end in
  do s <- sparsity_3D t';
  Ok (t', snd r, s).

(** lines 296-299: how much of the training set to use *)
Inductive policy := Constant (size : Q) | LinearGrow.

Record record := mkRec { r_iteration : nat; r_top1 : Q; r_param : string; r_density : Q; r_macs : Q; r_densities : list Q }.

Inductive outcome := Running | Raised (e : exn) | Finished.

(** The variables of [greedy_pruner]; [g_mask] is [zeros_mask_dict] (None: unbound) *)
Record gstate := mkG {
  g_iter : nat; g_model : weights; g_macs : Q; g_mask : option (option nd);
  g_records : list record;           (* greedy.csv *)
  g_saved : list weights             (* checkpoint of each iteration *)
}.

Section Greedy.
Variable finish : nat -> Q -> weights -> string -> option nd -> res (score3 * weights).
Variable macs : weights -> res Q.                    (* lines 178-191 [get_model_compute_budget] *)
Variable final_test : weights -> res score3.

(** lines 93-116 [prune_finetune_test] on a copy [m] of the model *)
Definition prune_finetune_test (it : nat) (size : Q) (step : Q) (m : weights) (n : string)
  : res (score3 * weights * option nd) :=
  match dget m n with
  | None => Raise KeyError
  | Some t =>
      do r <- prune_tensor t n step;
      let '(t', mask, s) := r in
      let m' := dset m n t' in
      if Qeq_bool s 0 then Ok ((-1, -1, -1), m', mask)
      else do x <- finish it size m' n mask; Ok (fst x, snd x, mask)
  end.

Definition best := option (score3 * string * weights * option nd).

(** lines 129-141: one parameter of [find_most_robust_layer] *)
Definition try_layer (it : nat) (size step : Q) (m : weights) (b : best) (n : string) : res best :=
  match dget m n with
  | None => Raise KeyError
  | Some t =>
      if negb (Nat.eqb (ndim t) 4) then Ok b
      else
        do r <- prune_finetune_test it size step m n;
        let '(sc, m', mask) := r in
        if match b with None => true | Some (sb, _, _, _) => score_gt sc sb end
        then Ok (Some (sc, n, m', mask))
        else Ok b
  end.

(** lines 119-142 [find_most_robust_layer] *)
Definition find_most_robust_layer (it : nat) (size step : Q) (m : weights) (names : list string) : res best :=
  foldM (try_layer it size step m) names None.

(** lines 194-205 [get_param_densities] *)
Definition get_param_densities (m0 m : weights) (names : list string) : res (list Q) :=
  foldM (fun acc n =>
    match dget m0 n with
    | None => Raise KeyError
    | Some t0 =>
        if negb (Nat.eqb (ndim t0) 4) then Ok acc
        else match dget m n with
             | None => Raise KeyError
             | Some t => do x <- ratio (length (nd_data t)) (length (nd_data t0)); Ok (acc ++ [x])%list
             end
    end) names [].

Definition div (a b : Q) : res Q := if Qeq_bool b 0 then Raise ZeroDivisionError else Ok (a / b).

(** lines 295-317: the body of the loop; with no 4-D parameter the model becomes None and its MACs cannot be computed *)
Definition greedy_body (pol : policy) (step dense : Q) (m0 : weights) (names : list string) (g : gstate) : res gstate :=
  let it := S (g_iter g) in
  do size <- match pol with
             | Constant s => Ok s
             | LinearGrow => do d <- div (g_macs g) dense; Ok (1 - d)
             end;
  do b <- find_most_robust_layer it size step (g_model g) names;
  match b with
  | None => Raise AttributeError
  | Some ((prec1, _, _), n, m', _) =>
      do total <- macs m';
      do ds <- get_param_densities m0 m' names;
      do cd <- div total dense;
      Ok (mkG it m' total None                     (* line 316: del zeros_mask_dict *)
            (g_records g ++ [mkRec it prec1 n cd total ds])%list
            (g_saved g ++ [m'])%list)
  end.

(** lines 294-317: [while total_macs > fraction_to_prune * dense_total_macs], at most [fuel] iterations *)
Fixpoint greedy_loop (fuel : nat) (pol : policy) (step frac dense : Q) (m0 : weights) (names : list string) (g : gstate)
  : gstate * outcome :=
  if Qltb (frac * dense) (g_macs g) then
    match fuel with
    | O => (g, Running)
    | S fuel' =>
        match greedy_body pol step dense m0 names g with
        | Raise e => (g, Raised e)
        | Ok g' => greedy_loop fuel' pol step frac dense m0 names g'
        end
    end
  else (g, Finished).

(** lines 272-325 [greedy_pruner]; [names] are the 4 hard-coded lists of parameters, or all the parameters.  The result
    is the state, whether the final checkpoint (lines 323-325) was written, and how the run ended. *)
Definition greedy_pruner (fuel : nat) (pol : policy) (step frac : Q) (m : weights) (names : option (list string))
  : gstate * bool * outcome :=
  let names' := match names with Some l => l | None => dkeys m end in
  let g0 := mkG 0 m 0 None [] [] in
  match macs m with
  | Raise e => (g0, false, Raised e)
  | Ok dense =>
      let (g, o) := greedy_loop fuel pol step frac dense m names' (mkG 0 m dense None [] []) in
      match o with
      | Finished =>
          if Nat.eqb (g_iter g) 0 then (g, false, Raised AssertionError)          (* line 319 *)
          else match final_test (g_model g) with
               | Raise e => (g, false, Raised e)
               | Ok _ => match g_mask g with
                         | None => (g, false, Raised NameError)                    (* line 322: the local is unbound *)
                         | Some _ => (g, true, Finished)
                         end
               end
      | _ => (g, false, o)
      end
  end.
End Greedy.
