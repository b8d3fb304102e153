(** Model of the per-channel activation statistics (distiller/utils.py:411-486), of the collector that averages
    them (collector.py:207-296), of the collector of per-sample records (collector.py:299-391) and of the lookup of
    these statistics by the activation-ranked filter pruners (ranked_structures_pruner.py:339-361).

    Simplifications: real numbers instead of floats; a tensor is its shape and its elements in row-major order
    (C-contiguous); torch refuses to reshape to (-1, 0): such an empty activation raises RuntimeError here before
    anything is computed.  Moving tensors between devices is the identity. *)
From Coq Require Import String Ascii List Reals Arith Bool.
From Verif Require Import Base CollModel LapqModel.
Import ListNotations.
Open Scope list_scope.
Open Scope nat_scope.
Open Scope R_scope.

Fixpoint mapM {A B} (f : A -> res B) (l : list A) : res (list B) :=
  match l with [] => Ok [] | a :: l => do b <- f a; do r <- mapM f l; Ok (b :: r) end.
Fixpoint list_set {A} (l : list A) (k : nat) (v : A) : list A :=
  match l, k with [], _ => [] | _ :: l, O => v :: l | a :: l, S k => a :: list_set l k v end.

(** an activation tensor *)
Record act := mkAct { a_shape : list nat; a_data : list R }.
Definition numel (a : act) : nat := length (a_data a).

(** Tensor.view(m, k) of row-major elements: m rows of k elements *)
Fixpoint rows (m k : nat) (l : list R) : list (list R) :=
  match m with O => [] | S m => firstn k l :: rows m k (skipn k l) end.
(** Tensor.mean(dim=0) of an (n x c) matrix given by its rows *)
Definition mean_dim0 (c : nat) (m : list (list R)) : list R :=
  map (fun j => rsum (map (fun r => nth j r 0) m) / INR (length m)) (seq 0 c).
(** Tensor.mean() of a vector *)
Definition vmean (l : list R) : R := rsum l / INR (length l).

(** the shape shared by utils.py:429-439, 453-462 and 476-486: reduce every (sample, channel) image with [f] and
    average over the samples; for two dimensions reduce every row and average: one number *)
Definition activation_channels (f : list R -> R) (a : act) : res (list R) :=
  match a_shape a with
  | [n; c; h; w] =>
      if Nat.eqb (numel a) 0 then Raise RuntimeError else
      let view_2d := rows (n * c) (h * w) (a_data a) in
      let featuremap := map f view_2d in
      Ok (mean_dim0 c (rows n c featuremap))
  | [n; k] => Ok [vmean (map f (rows n k (a_data a)))]
  | _ => Raise ValueError
  end.

(** activation_channels_l1, utils.py:411-439 (norm(p=1, dim=1)) *)
Definition activation_channels_l1 (a : act) : res (list R) :=
  activation_channels (fun r => rsum (map Rabs r)) a.
(** activation_channels_means, utils.py:442-462 (mean(dim=1)) *)
Definition activation_channels_means (a : act) : res (list R) :=
  activation_channels vmean a.
(** abs().gt(0).sum(dim=1): how many elements have a positive magnitude *)
Definition nonzeros (r : list R) : nat :=
  length (filter (fun x => if Rlt_dec 0 (Rabs x) then true else false) r).
(** activation_channels_apoz, utils.py:465-486: 100 minus the mean share of nonzeros times 100 *)
Definition activation_channels_apoz (a : act) : res (list R) :=
  do m <- activation_channels (fun r => INR (nonzeros r) / INR (length r)) a;
  Ok (map (fun x => 100 - x * 100) m).

(* ------------------------------------------------------------------------- *)
(** * SummaryActivationStatsCollector *)

(** WeightedAverageValueMeter.add (collector.py:183-204) when the value is a tensor: every element has its own running
    figures.  [None]: a new meter or a reset one (collector.py:251-263).  The running figures are updated in
    place (self.sum += ...), so a value with another number of elements is refused unless it has one element
    (broadcast). *)
Definition tm_add (ms : option (list meter)) (vs : list R) (n : nat) : res (list meter) :=
  if Nat.eqb n 0 then Raise ValueError else
  match ms with
  | None => mapM (fun v => meter_add meter0 v n) vs
  | Some ms =>
      if Nat.eqb (length vs) (length ms) then mapM (fun p => meter_add (fst p) (snd p) n) (combine ms vs)
      else match vs with [v] => mapM (fun m => meter_add m v n) ms | _ => Raise RuntimeError end
  end.

(** collector_direction, collector.py:49-54 *)
Inductive direction := OUT | IN.
(** torch.cat(inputs), the default inputs_consolidate_func: concatenation along the first dimension; the other
    dimensions have to agree *)
Definition same_tail (a b : act) : bool :=
  match a_shape a, a_shape b with
  | _ :: s, _ :: s' => if list_eq_dec Nat.eq_dec s s' then true else false
  | _, _ => false
  end.
Definition torch_cat (l : list act) : res act :=
  match l with
  | [] => Raise RuntimeError
  | a :: _ =>
      if forallb (same_tail a) l then
        Ok (mkAct (list_sum (map (fun b => hd O (a_shape b)) l) :: tl (a_shape a)) (concat (map a_data l)))
      else Raise RuntimeError
  end.

(** _activation_stats_cb, collector.py:230-249.  A RuntimeError of the meter is re-raised (as a ValueError when its
    text mentions "The expanded size of the tensor", which depends on the torch version: not modelled). *)
Definition summary_cb (summary_fn : act -> res (list R)) (d : direction) (ms : option (list meter))
  (inputs : list act) (output : act) : res (list meter) :=
  do feature_map <- match d with OUT => Ok output | IN => torch_cat inputs end;
  do v <- summary_fn feature_map;
  tm_add ms v (numel feature_map).

(** a history of forward calls of a module, from a new or reset meter *)
Definition summary_run (fn : act -> res (list R)) (d : direction) (calls : list (list act * act)) : res (option (list meter)) :=
  foldM (fun ms c => do m <- summary_cb fn d ms (fst c) (snd c); Ok (Some m)) calls None.
(** value() for the module, collector.py:265-270: the means *)
Definition summary_value (ms : option (list meter)) : list R :=
  match ms with Some l => map w_mean l | None => [] end.

(** save, collector.py:272-277: the name of the file *)
Definition summary_fname (fname : string) : string :=
  if endswith ".xlsx" fname then fname else (fname ++ "." ++ "xlsx")%string.

(* ------------------------------------------------------------------------- *)
(** * RecordsActivationStatsCollector *)

(** statistics_records, collector.py:346-352; 'shape' is the text of the shape: the shape here *)
Record records := mkRecords { s_min : list R; s_max : list R; s_mean : list R; s_std : list R; s_l2 : list R; s_shape : list nat }.
Definition records0 : records := mkRecords [] [] [] [] [] [].

(** torch.std(dim=1) of a row: the unbiased estimate *)
Definition unbiased_std (r : list R) : R :=
  sqrt (rsum (map (fun x => (x - vmean r) ^ 2) r) / INR (length r - 1)).
Definition l2_norm (r : list R) : R := sqrt (rsum (map (fun x => x ^ 2) r)).

(** _activation_stats_cb, collector.py:313-344 *)
Definition records_cb (s : records) (output : act) : res records :=
  match a_shape output with
  | [] => Raise IndexError
  | n :: _ =>
      if Nat.eqb (numel output) 0 then Raise RuntimeError else
      let a := rows n (numel output / n) (a_data output) in
      let std := if Nat.eqb n (numel output) then map (fun _ => 0) a else map unbiased_std a in
      Ok (mkRecords (s_min s ++ map min_of a) (s_max s ++ map max_of a) (s_mean s ++ map vmean a)
                    (s_std s ++ std) (s_l2 s ++ map l2_norm a) (a_shape output))
  end.

(** The records of a module are an object: value() returns the object itself (collector.py:389-391) and
    _reset_counter puts a new object in its place (collector.py:381-387). *)
Record rstate := mkRS { heap : list records; cur : option nat }.
Inductive rop := RStart | RForward (o : act) | RReset | RStop.

(** one event, for a module whose hook is registered; [on] tells whether it is *)
Definition rstep (st : rstate * bool) (o : rop) : res (rstate * bool) :=
  let (s, on) := st in
  match o with
  | RStart => (* _start_counter, collector.py:381-383 *)
      match cur s with
      | Some _ => Ok (s, true)
      | None => Ok (mkRS (heap s ++ [records0]) (Some (length (heap s))), true)
      end
  | RForward a =>
      if on then
        match cur s with
        | Some r => do x <- records_cb (nth r (heap s) records0) a;
                    Ok (mkRS (list_set (heap s) r x) (cur s), on)
        | None => Raise AttributeError
        end
      else Ok (s, on)
  | RReset =>
      match cur s with
      | Some _ => Ok (mkRS (heap s ++ [records0]) (Some (length (heap s))), on)
      | None => Ok (s, on)
      end
  | RStop => Ok (s, false)
  end.
Definition rrun (l : list rop) (st : rstate * bool) : res (rstate * bool) := foldM rstep l st.

(** the contents of the object a value() call returned *)
Definition read (s : rstate) (ref : nat) : records := nth ref (heap s) records0.

(** save, collector.py:354-357: the name of the file *)
Definition records_fname (fname : string) : string := (fname ++ "." ++ "xlsx")%string.

(* ------------------------------------------------------------------------- *)
(** * ActivationRankedFilterPruner: where the statistics come from *)

(** str.replace(".conv", ".relu"); both have five characters.  [k] counts the characters of a match still to be
    skipped. *)
Fixpoint replace_conv (k : nat) (s : string) : string :=
  match s with
  | EmptyString => EmptyString
  | String c r =>
      match k with
      | S k => replace_conv k r
      | O => if String.prefix ".conv" s then (".relu" ++ replace_conv 4 r)%string else String c (replace_conv O r)
      end
  end.
(** [s[:-len(".weight")]] *)
Definition drop_weight (s : string) : string := substring 0 (String.length s - 7) s.
(** ranked_structures_pruner.py:343 *)
Definition activation_module_name (param_name : string) : string := drop_weight (replace_conv O param_name).

(** ranked_structures_pruner.py:339-358: [modules] are the named modules of the model with the collected
    statistic of each (None: it has no such attribute) *)
Definition quality_criterion (modules : dict (option (list meter))) (dim : nat) (param_name : string) : res (list R) :=
  if negb (Nat.eqb dim 4) then Raise AssertionError else
  match dget modules (activation_module_name param_name) with
  | None => Raise AssertionError
  | Some None => Raise ValueError
  | Some (Some ms) => Ok (summary_value (Some ms))
  end.
